(** Syntax trees of JavaScript programs, for a part of the grammar of ECMA-262 (clauses 13 to 16):
    a grammar that says how a tree is written in tokens, and a parser with automatic semicolon
    insertion (12.10).  Independent of the model: nothing of the tokenizer, its tokens or its
    printer is used here.

    Not covered: modules, template substitutions, bare [yield], [new] of anything but a path of names,
    holes in arrays, defaults in destructuring assignments (they are there in declarations and
    parameters), [for await], static blocks, private names with [in].  [in] is also left out of the
    first part of a for statement, and the words [async], [await], [let], [of], [static], [yield] are
    no names.

    Early errors are not checked, so that more is accepted than in the standard: [break] outside of
    a loop, a constant without value, two declarations of a name, assignments behind [?.], a comma
    behind [of], a prefix operator before [**], [super] everywhere, array and object literals that
    are no patterns before [=].  The theorems speak about more texts than programs then, not about fewer. *)
From Coq Require Import String Arith List NArith Bool.
From Verif Require Import Base EsSpec JsPlainSpec.
Import ListNotations.
Open Scope N_scope.

(** ** Tokens with line ends

    A token, and whether a line end stands somewhere between it and the token before. *)
Definition tok : Type := bool * element.

Definition has_line_end (s : str) : bool := existsb line_end s.

Section Lines.
Variables start_u part_u : N -> bool.
Variable goal : list element -> bool.

Fixpoint read_lines (n : nat) (st : state) (nl : bool) (s : str) : option (list tok) :=
  match s with
  | [] => Some []
  | _ =>
      match n with
      | O => None
      | S n =>
          match scan_at start_u part_u goal st s with
          | Some (e, r) =>
              if matters e then
                match read_lines n (next st e) false r with Some l => Some ((nl, e) :: l) | None => None end
              else read_lines n st (nl || has_line_end (firstn (length s - length r) s)) r
          | None => None
          end
      end
  end.

Definition es_lines (s : str) : option (list tok) := read_lines (length s) start false s.

End Lines.

(** A slash starts a regular expression at the beginning and after a sign that is no closing
    bracket.  For the programs below this is what the grammar says. *)
Definition usual_goal (past : list element) : bool :=
  match past with
  | [] => true
  | e :: _ => kind_eqb (fst e) Punct && negb (is_text [")"; "]"; "}"]%string (snd e))
  end.

(** ** Trees *)

(** What stands before the name of a method. *)
Inductive modif := HPlain | HAccess (k : str) | HGen | HAsync | HAsyncGen.

Inductive expr :=
| EWord (x : str)                                   (* a name, or this, super, null, true, false *)
| ELit (e : element)                                (* a number, string, template or regular expression *)
| EParen (e : expr)
| EArray (l : list expr)
| EObject (l : list prop)
| EFun (f : func)
| EClass (c : cls)
| ENew (x : str) (path : list str) (args : option (list expr))
| EMember (e : expr) (dot : str) (m : element)
| EIndex (e i : expr)
| ECall (e : expr) (args : list expr)
| EOptIndex (e i : expr)
| EOptCall (e : expr) (args : list expr)
| ETag (e : expr) (t : element)
| EPost (e : expr) (op : str)
| EPre (op : str) (e : expr)
| EBin (op : str) (l r : expr)
| ECond (c a b : expr)
| EAssign (e : expr) (op : str) (r : expr)
| EArrow (async : bool) (params : list pat) (e : expr)
| EArrowBody (async : bool) (params : list pat) (body : list stmt)
| EYield (all : bool) (e : expr)
| ESpread (e : expr)                                (* in arrays and arguments *)
| EComma (e r : expr)
with prop :=
| OKey (k : pkey) (e : expr)
| OShort (x : str)
| OSpread (e : expr)
| OMethod (h : modif) (k : pkey) (params : list pat) (body : list stmt)
with pkey := KName (e : element) | KExpr (e : expr)
with func := Func (async gen : bool) (name : option str) (params : list pat) (body : list stmt)
with cls := Class (name : option str) (ext : option expr) (l : list member)
with member :=
| MEmpty
| MMethod (static : bool) (h : modif) (k : pkey) (params : list pat) (body : list stmt)
| MField (static : bool) (k : pkey) (o : option expr)
with pat :=
| PName (x : str)
| PArray (l : list pat)
| PObject (l : list pat)
| PDefault (p : pat) (e : expr)
| PRest (p : pat)
| PKey (k : pkey) (p : pat)                         (* in objects *)
with stmt :=
| SEmpty
| SExpr (e : expr)
| SVar (kind : str) (ds : list (pat * option expr))
| SBlock (l : list stmt)
| SIf (c : expr) (s : stmt) (o : option stmt)
| SWhile (c : expr) (s : stmt)
| SDo (s : stmt) (c : expr)
| SFor (i : init) (c u : option expr) (s : stmt)
| SForIn (kind : str) (p : pat) (w : str) (e : expr) (s : stmt)     (* w: in or of; kind may be empty *)
| SReturn (o : option expr)
| SThrow (e : expr)
| SJump (k : str) (label : option str)              (* break, continue, debugger *)
| STry (body : list stmt) (handler : option (option pat * list stmt)) (final : option (list stmt))
| SSwitch (e : expr) (cases : list (option expr * list stmt))
| SFun (f : func)
| SClass (c : cls)
| SLabel (x : str) (s : stmt)
with init := INone | IExpr (e : expr) | IVar (kind : str) (ds : list (pat * option expr)).

(** ** Words and operators *)

Definition P (s : string) : element := (Punct, S_ s).
Definition K (s : string) : element := (Name, S_ s).
Definition same (a b : element) : bool := kind_eqb (fst a) (fst b) && str_eqb (snd a) (snd b).

Definition reserved : list string :=
  ["async"; "await"; "break"; "case"; "catch"; "class"; "const"; "continue"; "debugger"; "default";
   "delete"; "do"; "else"; "enum"; "export"; "extends"; "finally"; "for"; "function"; "if";
   "implements"; "import"; "in"; "instanceof"; "interface"; "let"; "new"; "of"; "package"; "private";
   "protected"; "public"; "return"; "static"; "switch"; "throw"; "try"; "typeof"; "var";
   "void"; "while"; "with"; "yield"]%string.

(** Names as expressions, names that are bound, names of members, keys of objects. *)
Definition ident (x : str) : bool := negb (is_text reserved x).
Definition binding (x : str) : bool := ident x && negb (is_text ["this"; "super"; "null"; "true"; "false"]%string x).
Definition member_name (e : element) : bool := match fst e with Name | Private => true | _ => false end.
Definition keyed (e : element) : bool := match fst e with Name | Text | Number | Private => true | _ => false end.
Definition literal (e : element) : bool :=
  match fst e with Number | Text | Template | Regex => true | _ => false end.

Definition assign_ops : list string :=
  ["="; "+="; "-="; "*="; "/="; "%="; "**="; "<<="; ">>="; ">>>="; "&="; "|="; "^="; "&&="; "||="; "??="]%string.

(** Binary operators with their rank: what binds tighter has the higher one. *)
Definition ranks : list (element * nat) :=
  [(P "??", 1); (P "||", 1); (P "&&", 2); (P "|", 3); (P "^", 4); (P "&", 5);
   (P "==", 6); (P "!=", 6); (P "===", 6); (P "!==", 6);
   (P "<", 7); (P ">", 7); (P "<=", 7); (P ">=", 7); (K "in", 7); (K "instanceof", 7);
   (P "<<", 8); (P ">>", 8); (P ">>>", 8); (P "+", 9); (P "-", 9);
   (P "*", 10); (P "/", 10); (P "%", 10)]%nat.

Definition rank (o : element) : option nat :=
  match find (fun p => same o (fst p)) ranks with Some p => Some (snd p) | None => None end.

Definition prefixes : list element :=
  [P "!"; P "~"; P "+"; P "-"; P "++"; P "--"; K "typeof"; K "void"; K "delete"; K "await"].
Definition prefix (o : element) : bool := existsb (same o) prefixes.
Definition increments (op : str) : bool := is_text ["++"; "--"]%string op.

(** What can be assigned to. *)
Definition target (e : expr) : bool :=
  match e with EWord x => binding x | EMember _ dot _ => str_eqb dot (S_ ".") | EIndex _ _ => true | _ => false end.
Definition assignable (op : str) (e : expr) : bool :=
  target e || str_eqb op (S_ "=") && match e with EArray _ | EObject _ => true | _ => false end.

Definition starts_with (e : element) (ts : list tok) : bool :=
  match ts with t :: _ => same (snd t) e | [] => false end.

(** Words that a statement starts with, or that cannot start one. *)
Definition statement_words : list string :=
  ["if"; "while"; "do"; "for"; "return"; "throw"; "break"; "continue"; "try"; "switch"; "function";
   "class"; "debugger"; "var"; "let"; "const"; "case"; "default"; "else"; "catch"; "finally"]%string.

(** The words [async function]. *)
Definition async_fun (ts : list tok) : bool :=
  match ts with
  | t :: r => same (snd t) (K "async") && match r with u :: _ => same (snd u) (K "function") | [] => true end
  | [] => false
  end.

(** An expression that is a statement starts with no brace, no function and no such word. *)
Definition opening (ts : list tok) : bool :=
  match ts with
  | t :: _ => negb (sign [";"; "{"; "}"]%string (snd t) || named statement_words (snd t)) && negb (async_fun ts)
  | [] => false
  end.

Definition kinds : list string := ["var"; "let"; "const"]%string.

(** An else belongs to the nearest if: no statement before an else ends in an if without else. *)
Fixpoint closed (s : stmt) : bool :=
  match s with
  | SIf _ _ None => false
  | SIf _ _ (Some r) => closed r
  | SWhile _ r | SFor _ _ _ r | SForIn _ _ _ _ r | SLabel _ r => closed r
  | _ => true
  end.

(** No line end before the first token. *)
Definition same_line (ts : list tok) : bool := match ts with t :: _ => negb (fst t) | [] => true end.
Definition line_ok (h : modif) (ts : list tok) : bool := match h with HAsync => same_line ts | _ => true end.

(** ** How trees are written *)

Inductive w_path : list str -> list tok -> Prop :=
| wk_end : w_path [] []
| wk_name x l ts b c : w_path l ts -> w_path (x :: l) ((b, P ".") :: (c, (Name, x)) :: ts).

(** The end of a statement: a semicolon, or nothing if a closing brace or the end follows. *)
Inductive w_end : bool -> list tok -> Prop :=
| wn_semicolon last b : w_end last [(b, P ";")]
| wn_none : w_end true [].

(** No word [in] or [of]. *)
Definition no_in (ts : list tok) : bool := forallb (fun t => negb (named ["in"; "of"]%string (snd t))) ts.

(** The name of a function or class, the beginning of a function, what stands before the name of a
    method, and before an arrow. *)
Inductive w_name : option str -> list tok -> Prop :=
| wna_none : w_name None []
| wna_some x b : binding x = true -> w_name (Some x) [(b, (Name, x))].
Inductive w_fun : bool -> bool -> list tok -> Prop :=
| wfh_plain b : w_fun false false [(b, K "function")]
| wfh_gen b c : w_fun false true [(b, K "function"); (c, P "*")]
| wfh_async b : w_fun true false [(b, K "async"); (false, K "function")]
| wfh_async_gen b c : w_fun true true [(b, K "async"); (false, K "function"); (c, P "*")].
Inductive w_modif : modif -> list tok -> Prop :=
| wmo_plain : w_modif HPlain []
| wmo_access k b : is_text ["get"; "set"]%string k = true -> w_modif (HAccess k) [(b, (Name, k))]
| wmo_gen b : w_modif HGen [(b, P "*")]
| wmo_async b : w_modif HAsync [(b, K "async")]
| wmo_async_gen b : w_modif HAsyncGen [(b, K "async"); (false, P "*")].
Inductive w_static : bool -> list tok -> Prop :=
| wst_no : w_static false []
| wst_yes b : w_static true [(b, K "static")].
Inductive w_async : bool -> list tok -> Prop :=
| was_no : w_async false []
| was_yes b : w_async true [(b, K "async")].

Inductive w_expr : expr -> list tok -> Prop :=
| we_one e ts : w_assign e ts -> w_expr e ts
| we_comma e r ts us b : w_assign e ts -> w_expr r us -> w_expr (EComma e r) (ts ++ (b, P ",") :: us)
with w_assign : expr -> list tok -> Prop :=
| wa_cond e ts : w_cond e ts -> w_assign e ts
| wa_assign e op r ts us b : w_left e ts -> assignable op e = true -> is_text assign_ops op = true -> w_assign r us ->
    w_assign (EAssign e op r) (ts ++ (b, (Punct, op)) :: us)
| wa_arrow a ps e hs ts us : w_async a hs -> w_arrow ps ts -> negb a || same_line ts = true ->
    starts_with (P "{") us = false -> w_assign e us ->
    w_assign (EArrow a ps e) (hs ++ ts ++ (false, P "=>") :: us)
| wa_arrow_body a ps body hs ts us : w_async a hs -> w_arrow ps ts -> negb a || same_line ts = true -> w_body body us ->
    w_assign (EArrowBody a ps body) (hs ++ ts ++ (false, P "=>") :: us)
| wa_yield e ts b : w_assign e ts -> same_line ts = true -> w_assign (EYield false e) ((b, K "yield") :: ts)
| wa_yield_all e ts b : w_assign e ts -> w_assign (EYield true e) ((b, K "yield") :: (false, P "*") :: ts)
with w_arrow : list pat -> list tok -> Prop :=
| war_name x b : binding x = true -> w_arrow [PName x] [(b, (Name, x))]
| war_params ps ts : w_params ps ts -> w_arrow ps ts
with w_cond : expr -> list tok -> Prop :=
| wc_bin e ts : w_bin 1 e ts -> w_cond e ts
| wc_if c a b ts us vs f g : w_bin 1 c ts -> w_assign a us -> w_assign b vs ->
    w_cond (ECond c a b) (ts ++ (f, P "?") :: us ++ (g, P ":") :: vs)
with w_bin : nat -> expr -> list tok -> Prop :=
| wb_unary p e ts : w_unary e ts -> w_bin p e ts
| wb_op p q o l r ts us b : rank o = Some q -> (p <= q)%nat -> w_bin q l ts -> w_bin (S q) r us ->
    w_bin p (EBin (snd o) l r) (ts ++ (b, o) :: us)
with w_unary : expr -> list tok -> Prop :=
| wu_post e ts : w_post e ts -> w_unary e ts
| wu_pre o e ts b : prefix o = true -> increments (snd o) && negb (target e) = false -> w_unary e ts ->
    w_unary (EPre (snd o) e) ((b, o) :: ts)
| wu_pow e r ts us b : w_post e ts -> w_unary r us -> w_unary (EBin (S_ "**") e r) (ts ++ (b, P "**") :: us)
with w_post : expr -> list tok -> Prop :=
| wp_left e ts : w_left e ts -> w_post e ts
| wp_post e op ts : w_left e ts -> target e = true -> increments op = true ->
    w_post (EPost e op) (ts ++ [(false, (Punct, op))])
| wp_new x path ts b c : ident x = true -> w_path path ts ->
    w_post (ENew x path None) ((b, K "new") :: (c, (Name, x)) :: ts)
with w_left : expr -> list tok -> Prop :=
| wl_primary e ts : w_primary e ts -> w_left e ts
| wl_member e dot m ts b c : w_left e ts -> is_text ["."; "?."]%string dot = true -> member_name m = true ->
    w_left (EMember e dot m) (ts ++ [(b, (Punct, dot)); (c, m)])
| wl_index e i ts us b c : w_left e ts -> w_expr i us -> w_left (EIndex e i) (ts ++ (b, P "[") :: us ++ [(c, P "]")])
| wl_call e l ts us b c : w_left e ts -> w_list l us -> w_left (ECall e l) (ts ++ (b, P "(") :: us ++ [(c, P ")")])
| wl_opt_index e i ts us a b c : w_left e ts -> w_expr i us ->
    w_left (EOptIndex e i) (ts ++ (a, P "?.") :: (b, P "[") :: us ++ [(c, P "]")])
| wl_opt_call e l ts us a b c : w_left e ts -> w_list l us ->
    w_left (EOptCall e l) (ts ++ (a, P "?.") :: (b, P "(") :: us ++ [(c, P ")")])
| wl_tag e t ts b : w_left e ts -> w_left (ETag e (Template, t)) (ts ++ [(b, (Template, t))])
with w_primary : expr -> list tok -> Prop :=
| wr_word x b : ident x = true -> w_primary (EWord x) [(b, (Name, x))]
| wr_lit e b : literal e = true -> w_primary (ELit e) [(b, e)]
| wr_paren e ts b c : w_expr e ts -> w_primary (EParen e) ((b, P "(") :: ts ++ [(c, P ")")])
| wr_array l ts b c : w_list l ts -> w_primary (EArray l) ((b, P "[") :: ts ++ [(c, P "]")])
| wr_object l ts b c : w_props l ts -> w_primary (EObject l) ((b, P "{") :: ts ++ [(c, P "}")])
| wr_fun f ts : w_function f ts -> w_primary (EFun f) ts
| wr_class c ts : w_class c ts -> w_primary (EClass c) ts
| wr_new x path l ts us b c d f : ident x = true -> w_path path ts -> w_list l us ->
    w_primary (ENew x path (Some l)) ((b, K "new") :: (c, (Name, x)) :: ts ++ (d, P "(") :: us ++ [(f, P ")")])
with w_list : list expr -> list tok -> Prop :=
| wi_none : w_list [] []
| wi_some l ts : w_list1 l ts -> w_list l ts
with w_list1 : list expr -> list tok -> Prop :=
| wi_one e ts : w_item e ts -> w_list1 [e] ts
| wi_cons e l ts us b : w_item e ts -> w_list l us -> w_list1 (e :: l) (ts ++ (b, P ",") :: us)
with w_item : expr -> list tok -> Prop :=
| wi_assign e ts : w_assign e ts -> w_item e ts
| wi_spread e ts b : w_assign e ts -> w_item (ESpread e) ((b, P "...") :: ts)
with w_props : list prop -> list tok -> Prop :=
| wo_none : w_props [] []
| wo_some l ts : w_props1 l ts -> w_props l ts
with w_props1 : list prop -> list tok -> Prop :=
| wo_one p ts : w_prop p ts -> w_props1 [p] ts
| wo_cons p l ts us b : w_prop p ts -> w_props l us -> w_props1 (p :: l) (ts ++ (b, P ",") :: us)
with w_prop : prop -> list tok -> Prop :=
| wo_key k e ts us b : w_key k ts -> w_assign e us -> w_prop (OKey k e) (ts ++ (b, P ":") :: us)
| wo_short x b : binding x = true -> w_prop (OShort x) [(b, (Name, x))]
| wo_spread e ts b : w_assign e ts -> w_prop (OSpread e) ((b, P "...") :: ts)
| wo_method h k ps body hs ks ts us : w_modif h hs -> w_key k ks -> line_ok h ks = true -> w_params ps ts -> w_body body us ->
    w_prop (OMethod h k ps body) (hs ++ ks ++ ts ++ us)
with w_key : pkey -> list tok -> Prop :=
| wke_name e b : keyed e = true -> w_key (KName e) [(b, e)]
| wke_expr e ts b c : w_assign e ts -> w_key (KExpr e) ((b, P "[") :: ts ++ [(c, P "]")])
with w_function : func -> list tok -> Prop :=
| wfu a g x ps body hs ns ts us : w_fun a g hs -> w_name x ns -> w_params ps ts -> w_body body us ->
    w_function (Func a g x ps body) (hs ++ ns ++ ts ++ us)
with w_class : cls -> list tok -> Prop :=
| wcl x o l ns es ts b c d : w_name x ns -> w_ext o es -> w_members l ts ->
    w_class (Class x o l) ((b, K "class") :: ns ++ es ++ (c, P "{") :: ts ++ [(d, P "}")])
with w_ext : option expr -> list tok -> Prop :=
| wex_none : w_ext None []
| wex_some e ts b : w_left e ts -> w_ext (Some e) ((b, K "extends") :: ts)
with w_members : list member -> list tok -> Prop :=
| wg_none : w_members [] []
| wg_one m ts : w_member true m ts -> w_members [m] ts
| wg_cons m l ts us : w_member false m ts -> w_members l us -> w_members (m :: l) (ts ++ us)
with w_member : bool -> member -> list tok -> Prop :=
| wg_empty last b : w_member last MEmpty [(b, P ";")]
| wg_method last st h k ps body ss hs ks ts us : w_static st ss -> w_modif h hs -> w_key k ks -> line_ok h ks = true ->
    w_params ps ts -> w_body body us -> w_member last (MMethod st h k ps body) (ss ++ hs ++ ks ++ ts ++ us)
| wg_field last st k ss ks us : w_static st ss -> w_key k ks -> w_end last us -> w_member last (MField st k None) (ss ++ ks ++ us)
| wg_value last st k e ss ks ts us b : w_static st ss -> w_key k ks -> w_assign e ts -> w_end last us ->
    w_member last (MField st k (Some e)) (ss ++ ks ++ (b, P "=") :: ts ++ us)
with w_params : list pat -> list tok -> Prop :=
| wq l ts b c : w_elems l ts -> w_params l ((b, P "(") :: ts ++ [(c, P ")")])
with w_elems : list pat -> list tok -> Prop :=
| wj_none : w_elems [] []
| wj_some l ts : w_elems1 l ts -> w_elems l ts
with w_elems1 : list pat -> list tok -> Prop :=
| wj_one p ts : w_elem p ts -> w_elems1 [p] ts
| wj_rest p ts b : w_pat p ts -> w_elems1 [PRest p] ((b, P "...") :: ts)
| wj_cons p l ts us b : w_elem p ts -> w_elems l us -> w_elems1 (p :: l) (ts ++ (b, P ",") :: us)
with w_elem : pat -> list tok -> Prop :=
| wel_pat p ts : w_pat p ts -> w_elem p ts
| wel_default p e ts us b : w_pat p ts -> w_assign e us -> w_elem (PDefault p e) (ts ++ (b, P "=") :: us)
with w_pat : pat -> list tok -> Prop :=
| wpa_name x b : binding x = true -> w_pat (PName x) [(b, (Name, x))]
| wpa_array l ts b c : w_elems l ts -> w_pat (PArray l) ((b, P "[") :: ts ++ [(c, P "]")])
| wpa_object l ts b c : w_fields l ts -> w_pat (PObject l) ((b, P "{") :: ts ++ [(c, P "}")])
with w_fields : list pat -> list tok -> Prop :=
| wfi_none : w_fields [] []
| wfi_some l ts : w_fields1 l ts -> w_fields l ts
with w_fields1 : list pat -> list tok -> Prop :=
| wfi_one p ts : w_field p ts -> w_fields1 [p] ts
| wfi_cons p l ts us b : w_field p ts -> w_fields l us -> w_fields1 (p :: l) (ts ++ (b, P ",") :: us)
with w_field : pat -> list tok -> Prop :=
| wfi_short x b : binding x = true -> w_field (PName x) [(b, (Name, x))]
| wfi_default x e ts b c : binding x = true -> w_assign e ts -> w_field (PDefault (PName x) e) ((b, (Name, x)) :: (c, P "=") :: ts)
| wfi_key k p ts us b : w_key k ts -> w_elem p us -> w_field (PKey k p) (ts ++ (b, P ":") :: us)
| wfi_rest x b c : binding x = true -> w_field (PRest (PName x)) [(b, P "..."); (c, (Name, x))]
with w_body : list stmt -> list tok -> Prop :=
| wd_body l ts b c : w_stmts true l ts -> w_body l ((b, P "{") :: ts ++ [(c, P "}")])
with w_stmts : bool -> list stmt -> list tok -> Prop :=
| ws_none last : w_stmts last [] []
| ws_some last l ts : w_stmts1 last l ts -> w_stmts last l ts
with w_stmts1 : bool -> list stmt -> list tok -> Prop :=
| ws_one last s ts : w_stmt last s ts -> w_stmts1 last [s] ts
| ws_cons last s l ts us : w_stmt false s ts -> w_stmts1 last l us -> w_stmts1 last (s :: l) (ts ++ us)
with w_stmt : bool -> stmt -> list tok -> Prop :=
| wt_empty last b : w_stmt last SEmpty [(b, P ";")]
| wt_expr last e ts us : w_expr e ts -> opening ts = true -> w_end last us -> w_stmt last (SExpr e) (ts ++ us)
| wt_var last k ds ts us b : is_text kinds k = true -> w_decls ds ts -> w_end last us ->
    w_stmt last (SVar k ds) ((b, (Name, k)) :: ts ++ us)
| wt_block last l ts : w_body l ts -> w_stmt last (SBlock l) ts
| wt_if last c s ts us b d f : w_expr c ts -> w_stmt last s us ->
    w_stmt last (SIf c s None) ((b, K "if") :: (d, P "(") :: ts ++ (f, P ")") :: us)
| wt_else last c s r ts us vs b d f g : w_expr c ts -> w_stmt false s us -> closed s = true -> w_stmt last r vs ->
    w_stmt last (SIf c s (Some r)) ((b, K "if") :: (d, P "(") :: ts ++ (f, P ")") :: us ++ (g, K "else") :: vs)
| wt_while last c s ts us b d f : w_expr c ts -> w_stmt last s us ->
    w_stmt last (SWhile c s) ((b, K "while") :: (d, P "(") :: ts ++ (f, P ")") :: us)
| wt_do last s c ts us vs b d f g : w_stmt false s ts -> w_expr c us -> w_end last vs ->
    w_stmt last (SDo s c) ((b, K "do") :: ts ++ (d, K "while") :: (f, P "(") :: us ++ (g, P ")") :: vs)
| wt_for last i c u s ts us vs ws b d f g h : w_init i ts -> w_opt c us -> w_opt u vs -> w_stmt last s ws ->
    w_stmt last (SFor i c u s)
      ((b, K "for") :: (d, P "(") :: ts ++ (f, P ";") :: us ++ (g, P ";") :: vs ++ (h, P ")") :: ws)
| wt_for_in last x w e s ts us b d f g h : binding x = true -> is_text ["in"; "of"]%string w = true ->
    w_expr e ts -> w_stmt last s us ->
    w_stmt last (SForIn [] (PName x) w e s)
      ((b, K "for") :: (d, P "(") :: (f, (Name, x)) :: (g, (Name, w)) :: ts ++ (h, P ")") :: us)
| wt_for_var last k p w e s vs ts us b d i g h : is_text kinds k = true -> w_pat p vs ->
    is_text ["in"; "of"]%string w = true -> w_expr e ts -> w_stmt last s us ->
    w_stmt last (SForIn k p w e s)
      ((b, K "for") :: (d, P "(") :: (i, (Name, k)) :: vs ++ (g, (Name, w)) :: ts ++ (h, P ")") :: us)
| wt_return_none last us b : w_end last us -> w_stmt last (SReturn None) ((b, K "return") :: us)
| wt_return last e ts us b : w_expr e ts -> same_line ts = true -> w_end last us ->
    w_stmt last (SReturn (Some e)) ((b, K "return") :: ts ++ us)
| wt_throw last e ts us b : w_expr e ts -> same_line ts = true -> w_end last us ->
    w_stmt last (SThrow e) ((b, K "throw") :: ts ++ us)
| wt_jump last k us b : is_text ["break"; "continue"; "debugger"]%string k = true -> w_end last us ->
    w_stmt last (SJump k None) ((b, (Name, k)) :: us)
| wt_jump_label last k x us b : is_text ["break"; "continue"]%string k = true -> binding x = true -> w_end last us ->
    w_stmt last (SJump k (Some x)) ((b, (Name, k)) :: (false, (Name, x)) :: us)
| wt_try last body h f ts us vs b : w_body body ts -> w_handler h us -> w_final f vs -> us ++ vs <> [] ->
    w_stmt last (STry body h f) ((b, K "try") :: ts ++ us ++ vs)
| wt_switch last e l ts us b d f g h : w_expr e ts -> w_cases l us ->
    w_stmt last (SSwitch e l) ((b, K "switch") :: (d, P "(") :: ts ++ (f, P ")") :: (g, P "{") :: us ++ [(h, P "}")])
| wt_fun last a g x ps body ts : w_function (Func a g (Some x) ps body) ts ->
    w_stmt last (SFun (Func a g (Some x) ps body)) ts
| wt_class last x o l ts : w_class (Class (Some x) o l) ts -> w_stmt last (SClass (Class (Some x) o l)) ts
| wt_label last x s ts b c : binding x = true -> w_stmt last s ts ->
    w_stmt last (SLabel x s) ((b, (Name, x)) :: (c, P ":") :: ts)
with w_decls : list (pat * option expr) -> list tok -> Prop :=
| wv_one d ts : w_decl d ts -> w_decls [d] ts
| wv_cons d l ts us b : w_decl d ts -> w_decls l us -> w_decls (d :: l) (ts ++ (b, P ",") :: us)
with w_decl : pat * option expr -> list tok -> Prop :=
| wv_name p ts : w_pat p ts -> w_decl (p, None) ts
| wv_value p e ts us b : w_pat p ts -> w_assign e us -> w_decl (p, Some e) (ts ++ (b, P "=") :: us)
with w_init : init -> list tok -> Prop :=
| wz_none : w_init INone []
| wz_expr e ts : w_expr e ts -> no_in ts = true -> named kinds (snd (hd (false, P "") ts)) = false -> w_init (IExpr e) ts
| wz_var k ds ts b : is_text kinds k = true -> w_decls ds ts -> no_in ts = true -> w_init (IVar k ds) ((b, (Name, k)) :: ts)
with w_opt : option expr -> list tok -> Prop :=
| wx_none : w_opt None []
| wx_some e ts : w_expr e ts -> w_opt (Some e) ts
with w_handler : option (option pat * list stmt) -> list tok -> Prop :=
| wh_none : w_handler None []
| wh_catch body ts b : w_body body ts -> w_handler (Some (None, body)) ((b, K "catch") :: ts)
| wh_name p body vs ts b c d : w_pat p vs -> w_body body ts ->
    w_handler (Some (Some p, body)) ((b, K "catch") :: (c, P "(") :: vs ++ (d, P ")") :: ts)
with w_final : option (list stmt) -> list tok -> Prop :=
| wf_none : w_final None []
| wf_some body ts b : w_body body ts -> w_final (Some body) ((b, K "finally") :: ts)
with w_cases : list (option expr * list stmt) -> list tok -> Prop :=
| wy_none : w_cases [] []
| wy_last c l ts us : w_case c ts -> w_stmts true l us -> w_cases [(c, l)] (ts ++ us)
| wy_cons c l r ts us vs : w_case c ts -> w_stmts false l us -> w_cases r vs -> r <> [] ->
    w_cases ((c, l) :: r) (ts ++ us ++ vs)
with w_case : option expr -> list tok -> Prop :=
| wy_default b c : w_case None [(b, K "default"); (c, P ":")]
| wy_case e ts b c : w_expr e ts -> w_case (Some e) ((b, K "case") :: ts ++ [(c, P ":")]).

(** The tokens [ts] are the program [t], and no line end in it matters. *)
Definition program (t : list stmt) (ts : list tok) : Prop := w_stmts true t ts.

(** ** The parser *)

Local Notation "'let?' p ':=' e 'in' f" := (match e with Some p => f | None => None end)
  (at level 200, p pattern, e at level 100, f at level 200).

Definition eat (e : element) (ts : list tok) : option (list tok) :=
  match ts with t :: r => if same (snd t) e then Some r else None | [] => None end.

(** A semicolon, or a place where one is inserted (12.10.1): before a closing brace, at the end,
    or after a line end. *)
Definition semicolon (ts : list tok) : option (list tok) :=
  match ts with
  | [] => Some []
  | t :: r => if same (snd t) (P ";") then Some r else if same (snd t) (P "}") || fst t then Some ts else None
  end.

Fixpoint p_path (ts : list tok) : list str * list tok :=
  match ts with
  | (_, e) :: (_, (Name, x)) :: r => if same e (P ".") then let (l, s) := p_path r in (x :: l, s) else ([], ts)
  | _ => ([], ts)
  end.

(** The beginning of a for statement: a name and [in] or [of]. *)
Definition for_in (ts : list tok) : option (str * str * list tok) :=
  match ts with
  | (_, a) :: (_, b) :: r =>
      if kind_eqb (fst a) Name && binding (snd a) && named ["in"; "of"]%string b then Some (snd a, snd b, r) else None
  | _ => None
  end.

(** A label. *)
Definition label (ts : list tok) : option (str * list tok) :=
  match ts with
  | (_, t) :: r =>
      if kind_eqb (fst t) Name && binding (snd t) then let? s := eat (P ":") r in Some (snd t, s) else None
  | [] => None
  end.

(** What follows the closing bracket, behind [d] more of them. *)
Fixpoint after_paren (d : nat) (ts : list tok) : option (list tok) :=
  match ts with
  | [] => None
  | (_, t) :: r =>
      if same t (P "(") then after_paren (S d) r
      else if same t (P ")") then match d with O => Some r | S d => after_paren d r end
      else after_paren d r
  end.

(** An arrow on the same line, a name or brackets and an arrow behind them, and that with [async] before. *)
Definition arrow_next (ts : list tok) : bool := match ts with (nl, t) :: _ => negb nl && same t (P "=>") | [] => false end.
Definition arrow_ahead (ts : list tok) : bool :=
  match ts with
  | (_, t) :: r =>
      if same t (P "(") then match after_paren 0 r with Some s => arrow_next s | None => false end
      else kind_eqb (fst t) Name && binding (snd t) && arrow_next r
  | [] => false
  end.
Definition arrow_start (ts : list tok) : option (bool * list tok) :=
  if arrow_ahead ts then Some (false, ts)
  else match ts with
       | (_, t) :: r => if same t (K "async") && same_line r && arrow_ahead r then Some (true, r) else None
       | [] => None
       end.

Definition p_fun_star (ts : list tok) : bool * list tok :=
  match eat (P "*") ts with Some r => (true, r) | None => (false, ts) end.
Definition p_fun (ts : list tok) : option (bool * bool * list tok) :=
  match eat (K "async") ts with
  | Some r =>
      if same_line r then let? s := eat (K "function") r in let (g, s') := p_fun_star s in Some (true, g, s') else None
  | None => let? s := eat (K "function") ts in let (g, s') := p_fun_star s in Some (false, g, s')
  end.
Definition p_name (ts : list tok) : option str * list tok :=
  match ts with
  | (_, t) :: r => if kind_eqb (fst t) Name && binding (snd t) then (Some (snd t), r) else (None, ts)
  | [] => (None, ts)
  end.

(** What can be the name of a member, and what stands before it. *)
Definition keyish (ts : list tok) : bool := match ts with (_, t) :: _ => same t (P "[") || keyed t | [] => false end.
Definition p_modif (ts : list tok) : modif * list tok :=
  match ts with
  | (_, t) :: r =>
      if same t (P "*") then (HGen, r)
      else if named ["get"; "set"]%string t && keyish r then (HAccess (snd t), r)
      else if same t (K "async") && same_line r then
        match eat (P "*") r with
        | Some s => (HAsyncGen, s)
        | None => if keyish r then (HAsync, r) else (HPlain, ts)
        end
      else (HPlain, ts)
  | [] => (HPlain, ts)
  end.
Definition p_static (ts : list tok) : bool * list tok :=
  match ts with
  | (_, t) :: r => if same t (K "static") && (keyish r || starts_with (P "*") r) then (true, r) else (false, ts)
  | [] => (false, ts)
  end.

Definition stmts_end (ts : list tok) : bool :=
  match ts with
  | [] => true
  | t :: _ => same (snd t) (P "}") || same (snd t) (K "case") || same (snd t) (K "default")
  end.

(** Where the expression of a return statement is left out. *)
Definition no_value (ts : list tok) : bool :=
  match ts with [] => true | t :: _ => same (snd t) (P ";") || same (snd t) (P "}") || fst t end.

Fixpoint p_expr (n : nat) (ts : list tok) {struct n} : option (expr * list tok) :=
  match n with
  | O => None
  | S n =>
      let? (e, r) := p_assign n ts in
      match eat (P ",") r with
      | Some r' => let? (x, s) := p_expr n r' in Some (EComma e x, s)
      | None => Some (e, r)
      end
  end
with p_assign (n : nat) (ts : list tok) {struct n} : option (expr * list tok) :=
  match n with
  | O => None
  | S n =>
      match arrow_start ts with
      | Some (a, r) =>
          let? (ps, r1) := p_arrow n r in
          let? r2 := eat (P "=>") r1 in
          if starts_with (P "{") r2 then let? (b, s) := p_body n r2 in Some (EArrowBody a ps b, s)
          else let? (e, s) := p_assign n r2 in Some (EArrow a ps e, s)
      | None =>
          match eat (K "yield") ts with
          | Some r =>
              if same_line r then
                match eat (P "*") r with
                | Some r' => let? (e, s) := p_assign n r' in Some (EYield true e, s)
                | None => let? (e, s) := p_assign n r in Some (EYield false e, s)
                end
              else None
          | None =>
              let? (e, r) := p_cond n ts in
              match r with
              | (_, (Punct, op)) :: r' =>
                  if is_text assign_ops op then
                    if assignable op e then let? (x, s) := p_assign n r' in Some (EAssign e op x, s) else None
                  else Some (e, r)
              | _ => Some (e, r)
              end
          end
      end
  end
with p_arrow (n : nat) (ts : list tok) {struct n} : option (list pat * list tok) :=
  match n with
  | O => None
  | S n => match p_name ts with (Some x, r) => Some ([PName x], r) | (None, _) => p_params n ts end
  end
with p_cond (n : nat) (ts : list tok) {struct n} : option (expr * list tok) :=
  match n with
  | O => None
  | S n =>
      let? (c, r) := p_bin n 1 ts in
      match eat (P "?") r with
      | Some r1 =>
          let? (a, r2) := p_assign n r1 in
          let? r3 := eat (P ":") r2 in
          let? (b, r4) := p_assign n r3 in Some (ECond c a b, r4)
      | None => Some (c, r)
      end
  end
with p_bin (n p : nat) (ts : list tok) {struct n} : option (expr * list tok) :=
  match n with
  | O => None
  | S n => let? (e, r) := p_unary n ts in bin_loop n p e r
  end
with bin_loop (n p : nat) (e : expr) (ts : list tok) {struct n} : option (expr * list tok) :=
  match n with
  | O => None
  | S n =>
      match ts with
      | (_, o) :: r =>
          match rank o with
          | Some q =>
              if (p <=? q)%nat then let? (x, s) := p_bin n (S q) r in bin_loop n p (EBin (snd o) e x) s
              else Some (e, ts)
          | None => Some (e, ts)
          end
      | [] => Some (e, ts)
      end
  end
with p_unary (n : nat) (ts : list tok) {struct n} : option (expr * list tok) :=
  match n with
  | O => None
  | S n =>
      match ts with
      | (_, o) :: r =>
          if prefix o then
            let? (e, s) := p_unary n r in
            if increments (snd o) && negb (target e) then None else Some (EPre (snd o) e, s)
          else
            let? (e, s) := p_post n ts in
            match eat (P "**") s with
            | Some s' => let? (x, s2) := p_unary n s' in Some (EBin (S_ "**") e x, s2)
            | None => Some (e, s)
            end
      | [] => None
      end
  end
with p_post (n : nat) (ts : list tok) {struct n} : option (expr * list tok) :=
  match n with
  | O => None
  | S n =>
      let? (e, r) := p_left n ts in
      match r with
      | (false, (Punct, op)) :: s =>
          if increments op then if target e then Some (EPost e op, s) else None else Some (e, r)
      | _ => Some (e, r)
      end
  end
with p_left (n : nat) (ts : list tok) {struct n} : option (expr * list tok) :=
  match n with
  | O => None
  | S n => let? (e, r) := p_primary n ts in left_loop n e r
  end
with left_loop (n : nat) (e : expr) (ts : list tok) {struct n} : option (expr * list tok) :=
  match n with
  | O => None
  | S n =>
      match ts with
      | (_, (Punct, op)) :: r =>
          if is_text ["."; "?."]%string op then
            match r with
            | (_, m) :: s =>
                if member_name m then left_loop n (EMember e op m) s
                else if str_eqb op (S_ "?.") then
                  if same m (P "[") then
                    let? (i, s1) := p_expr n s in let? s2 := eat (P "]") s1 in left_loop n (EOptIndex e i) s2
                  else if same m (P "(") then let? (l, s1) := p_list n (P ")") s in left_loop n (EOptCall e l) s1
                  else None
                else None
            | [] => None
            end
          else if str_eqb op (S_ "[") then
            let? (i, s) := p_expr n r in let? s' := eat (P "]") s in left_loop n (EIndex e i) s'
          else if str_eqb op (S_ "(") then
            let? (l, s) := p_list n (P ")") r in left_loop n (ECall e l) s
          else Some (e, ts)
      | (_, (Template, t)) :: r => left_loop n (ETag e (Template, t)) r
      | _ => Some (e, ts)
      end
  end
with p_primary (n : nat) (ts : list tok) {struct n} : option (expr * list tok) :=
  match n with
  | O => None
  | S n =>
      match ts with
      | (_, t) :: r =>
          if same t (P "(") then let? (e, s) := p_expr n r in let? s' := eat (P ")") s in Some (EParen e, s')
          else if same t (P "[") then let? (l, s) := p_list n (P "]") r in Some (EArray l, s)
          else if same t (P "{") then let? (l, s) := p_props n r in Some (EObject l, s)
          else if same t (K "function") || async_fun ts then let? (f, s) := p_function n ts in Some (EFun f, s)
          else if same t (K "class") then let? (c, s) := p_class n ts in Some (EClass c, s)
          else if same t (K "new") then
            match r with
            | (_, (Name, x)) :: r' =>
                if ident x then
                  let (path, s) := p_path r' in
                  match eat (P "(") s with
                  | Some s1 => let? (l, s2) := p_list n (P ")") s1 in Some (ENew x path (Some l), s2)
                  | None => Some (ENew x path None, s)
                  end
                else None
            | _ => None
            end
          else if kind_eqb (fst t) Name then if ident (snd t) then Some (EWord (snd t), r) else None
          else if literal t then Some (ELit t, r) else None
      | [] => None
      end
  end
with p_list (n : nat) (close : element) (ts : list tok) {struct n} : option (list expr * list tok) :=
  match n with
  | O => None
  | S n => match eat close ts with Some r => Some ([], r) | None => p_list1 n close ts end
  end
with p_list1 (n : nat) (close : element) (ts : list tok) {struct n} : option (list expr * list tok) :=
  match n with
  | O => None
  | S n =>
      let? (e, r) := p_item n ts in
      match eat (P ",") r with
      | Some r' => let? (l, s) := p_list n close r' in Some (e :: l, s)
      | None => let? s := eat close r in Some ([e], s)
      end
  end
with p_item (n : nat) (ts : list tok) {struct n} : option (expr * list tok) :=
  match n with
  | O => None
  | S n =>
      match eat (P "...") ts with
      | Some r => let? (e, s) := p_assign n r in Some (ESpread e, s)
      | None => p_assign n ts
      end
  end
with p_props (n : nat) (ts : list tok) {struct n} : option (list prop * list tok) :=
  match n with
  | O => None
  | S n =>
      match eat (P "}") ts with Some r => Some ([], r) | None => p_props1 n ts end
  end
with p_props1 (n : nat) (ts : list tok) {struct n} : option (list prop * list tok) :=
  match n with
  | O => None
  | S n =>
      let? (p, r) := p_prop n ts in
      match eat (P ",") r with
      | Some r' => let? (l, s) := p_props n r' in Some (p :: l, s)
      | None => let? s := eat (P "}") r in Some ([p], s)
      end
  end
with p_prop (n : nat) (ts : list tok) {struct n} : option (prop * list tok) :=
  match n with
  | O => None
  | S n =>
      match eat (P "...") ts with
      | Some r => let? (e, s) := p_assign n r in Some (OSpread e, s)
      | None =>
          let (h, r) := p_modif ts in
          let? (k, r1) := p_key n r in
          if starts_with (P "(") r1 then
            let? (ps, r2) := p_params n r1 in let? (b, r3) := p_body n r2 in Some (OMethod h k ps b, r3)
          else
            match h with
            | HPlain =>
                match eat (P ":") r1 with
                | Some r2 => let? (e, s) := p_assign n r2 in Some (OKey k e, s)
                | None => match k with KName (Name, x) => if binding x then Some (OShort x, r1) else None | _ => None end
                end
            | _ => None
            end
      end
  end
with p_key (n : nat) (ts : list tok) {struct n} : option (pkey * list tok) :=
  match n with
  | O => None
  | S n =>
      match ts with
      | (_, t) :: r =>
          if same t (P "[") then let? (e, s) := p_assign n r in let? s' := eat (P "]") s in Some (KExpr e, s')
          else if keyed t then Some (KName t, r) else None
      | [] => None
      end
  end
with p_function (n : nat) (ts : list tok) {struct n} : option (func * list tok) :=
  match n with
  | O => None
  | S n =>
      let? (a, g, r) := p_fun ts in
      let (x, r1) := p_name r in
      let? (ps, r2) := p_params n r1 in
      let? (b, r3) := p_body n r2 in Some (Func a g x ps b, r3)
  end
with p_class (n : nat) (ts : list tok) {struct n} : option (cls * list tok) :=
  match n with
  | O => None
  | S n =>
      let? r := eat (K "class") ts in
      let (x, r1) := p_name r in
      let? (o, r2) := p_ext n r1 in
      let? r3 := eat (P "{") r2 in
      let? (l, r4) := p_members n r3 in Some (Class x o l, r4)
  end
with p_ext (n : nat) (ts : list tok) {struct n} : option (option expr * list tok) :=
  match n with
  | O => None
  | S n =>
      match eat (K "extends") ts with
      | Some r => let? (e, s) := p_left n r in Some (Some e, s)
      | None => Some (None, ts)
      end
  end
with p_members (n : nat) (ts : list tok) {struct n} : option (list member * list tok) :=
  match n with
  | O => None
  | S n =>
      match eat (P "}") ts with
      | Some r => Some ([], r)
      | None => let? (m, r) := p_member n ts in let? (l, s) := p_members n r in Some (m :: l, s)
      end
  end
with p_member (n : nat) (ts : list tok) {struct n} : option (member * list tok) :=
  match n with
  | O => None
  | S n =>
      match eat (P ";") ts with
      | Some r => Some (MEmpty, r)
      | None =>
          let (st, r0) := p_static ts in
          let (h, r) := p_modif r0 in
          let? (k, r1) := p_key n r in
          if starts_with (P "(") r1 then
            let? (ps, r2) := p_params n r1 in let? (b, r3) := p_body n r2 in Some (MMethod st h k ps b, r3)
          else
            match h with
            | HPlain =>
                match eat (P "=") r1 with
                | Some r2 => let? (e, r3) := p_assign n r2 in let? s := semicolon r3 in Some (MField st k (Some e), s)
                | None => let? s := semicolon r1 in Some (MField st k None, s)
                end
            | _ => None
            end
      end
  end
with p_params (n : nat) (ts : list tok) {struct n} : option (list pat * list tok) :=
  match n with
  | O => None
  | S n =>
      let? r := eat (P "(") ts in p_elems n (P ")") r
  end
with p_elems (n : nat) (close : element) (ts : list tok) {struct n} : option (list pat * list tok) :=
  match n with
  | O => None
  | S n =>
      match eat close ts with Some r => Some ([], r) | None => p_elems1 n close ts end
  end
with p_elems1 (n : nat) (close : element) (ts : list tok) {struct n} : option (list pat * list tok) :=
  match n with
  | O => None
  | S n =>
      match eat (P "...") ts with
      | Some r => let? (p, s) := p_pat n r in let? s' := eat close s in Some ([PRest p], s')
      | None =>
          let? (p, r) := p_elem n ts in
          match eat (P ",") r with
          | Some r' => let? (l, s) := p_elems n close r' in Some (p :: l, s)
          | None => let? s := eat close r in Some ([p], s)
          end
      end
  end
with p_elem (n : nat) (ts : list tok) {struct n} : option (pat * list tok) :=
  match n with
  | O => None
  | S n =>
      let? (p, r) := p_pat n ts in
      match eat (P "=") r with
      | Some r' => let? (e, s) := p_assign n r' in Some (PDefault p e, s)
      | None => Some (p, r)
      end
  end
with p_pat (n : nat) (ts : list tok) {struct n} : option (pat * list tok) :=
  match n with
  | O => None
  | S n =>
      match ts with
      | (_, t) :: r =>
          if same t (P "[") then let? (l, s) := p_elems n (P "]") r in Some (PArray l, s)
          else if same t (P "{") then let? (l, s) := p_fields n r in Some (PObject l, s)
          else match p_name ts with (Some x, s) => Some (PName x, s) | (None, _) => None end
      | [] => None
      end
  end
with p_fields (n : nat) (ts : list tok) {struct n} : option (list pat * list tok) :=
  match n with
  | O => None
  | S n =>
      match eat (P "}") ts with Some r => Some ([], r) | None => p_fields1 n ts end
  end
with p_fields1 (n : nat) (ts : list tok) {struct n} : option (list pat * list tok) :=
  match n with
  | O => None
  | S n =>
      let? (p, r) := p_field n ts in
      match eat (P ",") r with
      | Some r' => let? (l, s) := p_fields n r' in Some (p :: l, s)
      | None => let? s := eat (P "}") r in Some ([p], s)
      end
  end
with p_field (n : nat) (ts : list tok) {struct n} : option (pat * list tok) :=
  match n with
  | O => None
  | S n =>
      match eat (P "...") ts with
      | Some r => match p_name r with (Some x, s) => Some (PRest (PName x), s) | (None, _) => None end
      | None =>
          let? (k, r) := p_key n ts in
          match eat (P ":") r with
          | Some r1 => let? (p, s) := p_elem n r1 in Some (PKey k p, s)
          | None =>
              match k with
              | KName (Name, x) =>
                  if binding x then
                    match eat (P "=") r with
                    | Some r1 => let? (e, s) := p_assign n r1 in Some (PDefault (PName x) e, s)
                    | None => Some (PName x, r)
                    end
                  else None
              | _ => None
              end
          end
      end
  end
with p_body (n : nat) (ts : list tok) {struct n} : option (list stmt * list tok) :=
  match n with
  | O => None
  | S n => let? r := eat (P "{") ts in let? (l, s) := p_stmts n r in let? s' := eat (P "}") s in Some (l, s')
  end
with p_stmts (n : nat) (ts : list tok) {struct n} : option (list stmt * list tok) :=
  match n with
  | O => None
  | S n =>
      if stmts_end ts then Some ([], ts)
      else let? (s, r) := p_stmt n ts in let? (l, r') := p_stmts n r in Some (s :: l, r')
  end
with p_stmt (n : nat) (ts : list tok) {struct n} : option (stmt * list tok) :=
  match n with
  | O => None
  | S n =>
      match label ts with
      | Some (x, r) => let? (s, r') := p_stmt n r in Some (SLabel x s, r')
      | None =>
      if opening ts then let? (e, r) := p_expr n ts in let? s := semicolon r in Some (SExpr e, s)
      else
      match ts with
      | [] => None
      | (_, t) :: r =>
          if same t (P ";") then Some (SEmpty, r)
          else if same t (P "{") then let? (l, s) := p_body n ts in Some (SBlock l, s)
          else if named kinds t then
            let? (ds, s) := p_decls n r in let? s' := semicolon s in Some (SVar (snd t) ds, s')
          else if same t (K "if") then
            let? r1 := eat (P "(") r in
            let? (c, r2) := p_expr n r1 in
            let? r3 := eat (P ")") r2 in
            let? (x, r4) := p_stmt n r3 in
            match eat (K "else") r4 with
            | Some r5 => let? (y, r6) := p_stmt n r5 in Some (SIf c x (Some y), r6)
            | None => Some (SIf c x None, r4)
            end
          else if same t (K "while") then
            let? r1 := eat (P "(") r in
            let? (c, r2) := p_expr n r1 in
            let? r3 := eat (P ")") r2 in
            let? (x, r4) := p_stmt n r3 in Some (SWhile c x, r4)
          else if same t (K "do") then
            let? (x, r1) := p_stmt n r in
            let? r2 := eat (K "while") r1 in
            let? r3 := eat (P "(") r2 in
            let? (c, r4) := p_expr n r3 in
            let? r5 := eat (P ")") r4 in
            match semicolon r5 with Some r6 => Some (SDo x c, r6) | None => Some (SDo x c, r5) end
          else if same t (K "for") then
            let? r1 := eat (P "(") r in
            match for_in r1 with
            | Some (x, w, r2) =>
                let? (e, r3) := p_expr n r2 in
                let? r4 := eat (P ")") r3 in
                let? (s, r5) := p_stmt n r4 in Some (SForIn [] (PName x) w e s, r5)
            | None =>
            match p_for n r1 with
            | Some (k, p, w, r2) =>
                let? (e, r3) := p_expr n r2 in
                let? r4 := eat (P ")") r3 in
                let? (s, r5) := p_stmt n r4 in Some (SForIn k p w e s, r5)
            | None =>
                let? (i, r2) := p_init n r1 in
                let? r3 := eat (P ";") r2 in
                let? (c, r4) := p_opt n (P ";") r3 in
                let? r5 := eat (P ";") r4 in
                let? (u, r6) := p_opt n (P ")") r5 in
                let? r7 := eat (P ")") r6 in
                let? (s, r8) := p_stmt n r7 in Some (SFor i c u s, r8)
            end
            end
          else if same t (K "return") then
            if no_value r then let? s := semicolon r in Some (SReturn None, s)
            else let? (e, s) := p_expr n r in let? s' := semicolon s in Some (SReturn (Some e), s')
          else if same t (K "throw") then
            if no_value r then None
            else let? (e, s) := p_expr n r in let? s' := semicolon s in Some (SThrow e, s')
          else if named ["break"; "continue"; "debugger"]%string t then
            if no_value r then let? s := semicolon r in Some (SJump (snd t) None, s)
            else match p_name r with
                 | (Some x, r1) => let? s := semicolon r1 in Some (SJump (snd t) (Some x), s)
                 | (None, _) => None
                 end
          else if same t (K "try") then
            let? (b, r1) := p_body n r in
            let? (h, r2) := p_handler n r1 in
            let? (f, r3) := p_final n r2 in
            match h, f with None, None => None | _, _ => Some (STry b h f, r3) end
          else if same t (K "switch") then
            let? r1 := eat (P "(") r in
            let? (e, r2) := p_expr n r1 in
            let? r3 := eat (P ")") r2 in
            let? r4 := eat (P "{") r3 in
            let? (l, r5) := p_cases n r4 in
            let? r6 := eat (P "}") r5 in Some (SSwitch e l, r6)
          else if same t (K "function") || async_fun ts then
            let? (f, s) := p_function n ts in
            match f with Func _ _ (Some _) _ _ => Some (SFun f, s) | _ => None end
          else if same t (K "class") then
            let? (c, s) := p_class n ts in
            match c with Class (Some _) _ _ => Some (SClass c, s) | _ => None end
          else None
      end
      end
  end
with p_for (n : nat) (ts : list tok) {struct n} : option (str * pat * str * list tok) :=
  match n with
  | O => None
  | S n =>
      match ts with
      | (_, t) :: r =>
          if named kinds t then
            let? (p, s) := p_pat n r in
            match s with
            | (_, w) :: s' => if named ["in"; "of"]%string w then Some (snd t, p, snd w, s') else None
            | [] => None
            end
          else None
      | [] => None
      end
  end
with p_decls (n : nat) (ts : list tok) {struct n} : option (list (pat * option expr) * list tok) :=
  match n with
  | O => None
  | S n =>
      let? (d, r) := p_decl n ts in
      match eat (P ",") r with
      | Some r' => let? (l, s) := p_decls n r' in Some (d :: l, s)
      | None => Some ([d], r)
      end
  end
with p_decl (n : nat) (ts : list tok) {struct n} : option ((pat * option expr) * list tok) :=
  match n with
  | O => None
  | S n =>
      let? (p, r) := p_pat n ts in
      match eat (P "=") r with
      | Some r' => let? (e, s) := p_assign n r' in Some ((p, Some e), s)
      | None => Some ((p, None), r)
      end
  end
with p_init (n : nat) (ts : list tok) {struct n} : option (init * list tok) :=
  match n with
  | O => None
  | S n =>
      match ts with
      | (_, t) :: r =>
          if same t (P ";") then Some (INone, ts)
          else if named kinds t then let? (ds, s) := p_decls n r in Some (IVar (snd t) ds, s)
          else let? (e, s) := p_expr n ts in Some (IExpr e, s)
      | [] => None
      end
  end
with p_opt (n : nat) (close : element) (ts : list tok) {struct n} : option (option expr * list tok) :=
  match n with
  | O => None
  | S n =>
      if starts_with close ts then Some (None, ts) else let? (e, s) := p_expr n ts in Some (Some e, s)
  end
with p_handler (n : nat) (ts : list tok) {struct n} : option (option (option pat * list stmt) * list tok) :=
  match n with
  | O => None
  | S n =>
      match eat (K "catch") ts with
      | None => Some (None, ts)
      | Some r =>
          match eat (P "(") r with
          | Some r1 =>
              let? (p, r2) := p_pat n r1 in
              let? r3 := eat (P ")") r2 in let? (b, s) := p_body n r3 in Some (Some (Some p, b), s)
          | None => let? (b, s) := p_body n r in Some (Some (None, b), s)
          end
      end
  end
with p_final (n : nat) (ts : list tok) {struct n} : option (option (list stmt) * list tok) :=
  match n with
  | O => None
  | S n =>
      match eat (K "finally") ts with
      | None => Some (None, ts)
      | Some r => let? (b, s) := p_body n r in Some (Some b, s)
      end
  end
with p_cases (n : nat) (ts : list tok) {struct n} : option (list (option expr * list stmt) * list tok) :=
  match n with
  | O => None
  | S n =>
      match p_case n ts with
      | Some (c, r) => let? (l, s) := p_stmts n r in let? (m, s') := p_cases n s in Some ((c, l) :: m, s')
      | None => Some ([], ts)
      end
  end
with p_case (n : nat) (ts : list tok) {struct n} : option (option expr * list tok) :=
  match n with
  | O => None
  | S n =>
      match eat (K "default") ts with
      | Some r => let? s := eat (P ":") r in Some (None, s)
      | None =>
          let? r := eat (K "case") ts in
          let? (e, s) := p_expr n r in let? s' := eat (P ":") s in Some (Some e, s')
      end
  end.

(** The tree of a program; None if it is none of the part of the grammar that is covered. *)
Definition parse (ts : list tok) : option (list stmt) :=
  match p_stmts (20 * length ts + 20) ts with Some (l, []) => Some l | _ => None end.

Definition es_program (start_u part_u : N -> bool) (s : str) : option (list stmt) :=
  let? ts := es_lines start_u part_u usual_goal s in parse ts.

(** ** A program as it is written (JsPlainSpec): its tokens with line ends *)
Fixpoint lines (nl : bool) (l : list item) : list tok :=
  match l with
  | [] => []
  | Between g :: r => lines (nl || has_line_end g) r
  | Piece e :: r => (nl, e) :: lines false r
  end.

(** Without empty statements at the beginning. *)
Fixpoint drop_empty (t : list stmt) : list stmt :=
  match t with SEmpty :: r => drop_empty r | _ => t end.

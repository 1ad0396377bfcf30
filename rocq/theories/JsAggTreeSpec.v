(** Specification of the documented way to aggregate literals, in terms of the tokens of ECMA-262
    and of syntax trees.  Independent of the model: nothing of the tokenizer, its tokens, its
    printer or the aggregation is used here. *)
From Coq Require Import String Arith List NArith Bool.
From Verif Require Import Base EsSpec JsPlainSpec JsTreeSpec.
Import ListNotations.
Open Scope N_scope.

(** ** Literals *)

(** A string or a template, as it is written, in a program with the tokens [whole]. *)
Definition quoted (e : element) : bool := match fst e with Text | Template => true | _ => false end.

Definition times (whole : list element) (s : str) : nat :=
  length (filter (fun x => quoted x && str_eqb (snd x) s) whole).

Definition repeated (whole : list element) (e : element) : bool :=
  quoted e && (2 <=? times whole (snd e))%nat.

(** No literal that is there twice follows a word, a regular expression or another such literal,
    and none is followed by a word other than [in] and [instanceof]. *)
Fixpoint beside (whole l : list element) : bool :=
  match l with
  | a :: ((b :: _) as r) =>
      negb (repeated whole b && (word a || kind_eqb (fst a) Regex || repeated whole a))
      && negb (repeated whole a && word b && negb (named ["in"; "instanceof"]%string b))
      && beside whole r
  | _ => true
  end.

(** No word of the program starts with r_ . *)
Definition r_free (l : list element) : bool :=
  forallb (fun e => negb (word e && str_eqb (firstn 2 (snd e)) (S_ "r_"))) l.

(** ** Declarations *)

(** The kind of a literal: a template starts with a backtick. *)
Definition literal_of (s : str) : element := ((if starts (N.eqb 0x60) s then Template else Text), s).

(** [var x=s,y=t;] as a statement. *)
Definition declaring (ds : list (str * str)) : stmt :=
  SVar (S_ "var") (map (fun d => (PName (fst d), Some (ELit (literal_of (snd d))))) ds).

(** The name that is declared with the literal. *)
Fixpoint name_of (ds : list (str * str)) (s : str) : option str :=
  match ds with
  | [] => None
  | (x, t) :: r => if str_eqb s t then Some x else name_of r s
  end.

Definition name_for (ds : list (str * str)) (e : element) : option str :=
  if quoted e then name_of ds (snd e) else None.

(** ** Trees in which literals are replaced

    All literals that are expressions; keys of objects, classes and patterns and the templates
    behind a tag are left as they are. *)
Section Swap.
Variable f : element -> option expr.

Fixpoint sw_e (e : expr) : expr :=
  match e with
  | EWord x => EWord x
  | ELit t => match f t with Some x => x | None => ELit t end
  | EParen a => EParen (sw_e a)
  | EArray l => EArray (map sw_e l)
  | EObject l => EObject (map sw_o l)
  | EFun g => EFun (sw_f g)
  | EClass c => EClass (sw_c c)
  | ENew x path o => ENew x path (match o with Some l => Some (map sw_e l) | None => None end)
  | EMember a dot m => EMember (sw_e a) dot m
  | EIndex a i => EIndex (sw_e a) (sw_e i)
  | ECall a l => ECall (sw_e a) (map sw_e l)
  | EOptIndex a i => EOptIndex (sw_e a) (sw_e i)
  | EOptCall a l => EOptCall (sw_e a) (map sw_e l)
  | ETag a t => ETag (sw_e a) t
  | EPost a op => EPost (sw_e a) op
  | EPre op a => EPre op (sw_e a)
  | EBin op a b => EBin op (sw_e a) (sw_e b)
  | ECond c a b => ECond (sw_e c) (sw_e a) (sw_e b)
  | EAssign a op b => EAssign (sw_e a) op (sw_e b)
  | EArrow s ps a => EArrow s (map sw_p ps) (sw_e a)
  | EArrowBody s ps b => EArrowBody s (map sw_p ps) (map sw_s b)
  | EYield all a => EYield all (sw_e a)
  | ESpread a => ESpread (sw_e a)
  | EComma a b => EComma (sw_e a) (sw_e b)
  end
with sw_o (o : prop) : prop :=
  match o with
  | OKey k e => OKey (sw_k k) (sw_e e)
  | OShort x => OShort x
  | OSpread e => OSpread (sw_e e)
  | OMethod h k ps b => OMethod h (sw_k k) (map sw_p ps) (map sw_s b)
  end
with sw_k (k : pkey) : pkey := match k with KName e => KName e | KExpr e => KExpr (sw_e e) end
with sw_f (g : func) : func :=
  match g with Func a gen x ps b => Func a gen x (map sw_p ps) (map sw_s b) end
with sw_c (c : cls) : cls :=
  match c with Class x o l => Class x (match o with Some e => Some (sw_e e) | None => None end) (map sw_m l) end
with sw_m (m : member) : member :=
  match m with
  | MEmpty => MEmpty
  | MMethod st h k ps b => MMethod st h (sw_k k) (map sw_p ps) (map sw_s b)
  | MField st k o => MField st (sw_k k) (match o with Some e => Some (sw_e e) | None => None end)
  end
with sw_p (p : pat) : pat :=
  match p with
  | PName x => PName x
  | PArray l => PArray (map sw_p l)
  | PObject l => PObject (map sw_p l)
  | PDefault p e => PDefault (sw_p p) (sw_e e)
  | PRest p => PRest (sw_p p)
  | PKey k p => PKey (sw_k k) (sw_p p)
  end
with sw_s (s : stmt) : stmt :=
  match s with
  | SEmpty => SEmpty
  | SExpr e => SExpr (sw_e e)
  | SVar k ds => SVar k (map (fun d => match d with (p, o) => (sw_p p, match o with Some e => Some (sw_e e) | None => None end) end) ds)
  | SBlock l => SBlock (map sw_s l)
  | SIf c s o => SIf (sw_e c) (sw_s s) (match o with Some r => Some (sw_s r) | None => None end)
  | SWhile c s => SWhile (sw_e c) (sw_s s)
  | SDo s c => SDo (sw_s s) (sw_e c)
  | SFor i c u s => SFor (sw_i i) (match c with Some e => Some (sw_e e) | None => None end)
                      (match u with Some e => Some (sw_e e) | None => None end) (sw_s s)
  | SForIn k p w e s => SForIn k (sw_p p) w (sw_e e) (sw_s s)
  | SReturn o => SReturn (match o with Some e => Some (sw_e e) | None => None end)
  | SThrow e => SThrow (sw_e e)
  | SJump k x => SJump k x
  | STry b h l =>
      STry (map sw_s b)
        (match h with
         | Some (o, r) => Some ((match o with Some p => Some (sw_p p) | None => None end), map sw_s r)
         | None => None
         end)
        (match l with Some r => Some (map sw_s r) | None => None end)
  | SSwitch e l =>
      SSwitch (sw_e e)
        (map (fun c => match c with (o, b) => ((match o with Some e => Some (sw_e e) | None => None end), map sw_s b) end) l)
  | SFun g => SFun (sw_f g)
  | SClass c => SClass (sw_c c)
  | SLabel x s => SLabel x (sw_s s)
  end
with sw_i (i : init) : init :=
  match i with
  | INone => INone
  | IExpr e => IExpr (sw_e e)
  | IVar k ds => IVar k (map (fun d => match d with (p, o) => (sw_p p, match o with Some e => Some (sw_e e) | None => None end) end) ds)
  end.
End Swap.

Definition named_for (ds : list (str * str)) (e : element) : option expr :=
  match name_for ds e with Some x => Some (EWord x) | None => None end.

Definition swapped_tree (ds : list (str * str)) (t : list stmt) : list stmt := map (sw_s (named_for ds)) t.

(** All keys and all templates behind a tag have the property [g]. *)
Section Keys.
Variable g : element -> bool.

Fixpoint ok_e (e : expr) : bool :=
  match e with
  | EWord _ | ELit _ => true
  | EParen a | EMember a _ _ | EPost a _ | EPre _ a | EYield _ a | ESpread a => ok_e a
  | ETag a t => ok_e a && g t
  | EArray l => forallb ok_e l
  | EObject l => forallb ok_o l
  | EFun x => ok_f x
  | EClass c => ok_c c
  | ENew _ _ o => match o with Some l => forallb ok_e l | None => true end
  | ECall a l | EOptCall a l => ok_e a && forallb ok_e l
  | EIndex a b | EOptIndex a b | EBin _ a b | EAssign a _ b | EComma a b => ok_e a && ok_e b
  | ECond c a b => ok_e c && ok_e a && ok_e b
  | EArrow _ ps a => forallb ok_p ps && ok_e a
  | EArrowBody _ ps b => forallb ok_p ps && forallb ok_s b
  end
with ok_o (o : prop) : bool :=
  match o with
  | OKey k e => ok_k k && ok_e e
  | OShort _ => true
  | OSpread e => ok_e e
  | OMethod _ k ps b => ok_k k && forallb ok_p ps && forallb ok_s b
  end
with ok_k (k : pkey) : bool := match k with KName e => g e | KExpr e => ok_e e end
with ok_f (x : func) : bool := match x with Func _ _ _ ps b => forallb ok_p ps && forallb ok_s b end
with ok_c (c : cls) : bool :=
  match c with Class _ o l => match o with Some e => ok_e e | None => true end && forallb ok_m l end
with ok_m (m : member) : bool :=
  match m with
  | MEmpty => true
  | MMethod _ _ k ps b => ok_k k && forallb ok_p ps && forallb ok_s b
  | MField _ k o => ok_k k && match o with Some e => ok_e e | None => true end
  end
with ok_p (p : pat) : bool :=
  match p with
  | PName _ => true
  | PArray l | PObject l => forallb ok_p l
  | PDefault p e => ok_p p && ok_e e
  | PRest p => ok_p p
  | PKey k p => ok_k k && ok_p p
  end
with ok_s (s : stmt) : bool :=
  match s with
  | SEmpty | SJump _ _ => true
  | SExpr e | SThrow e => ok_e e
  | SVar _ ds => forallb (fun d => match d with (p, o) => ok_p p && match o with Some e => ok_e e | None => true end end) ds
  | SBlock l => forallb ok_s l
  | SIf c s o => ok_e c && ok_s s && match o with Some r => ok_s r | None => true end
  | SWhile c s | SDo s c => ok_e c && ok_s s
  | SFor i c u s => ok_i i && match c with Some e => ok_e e | None => true end
                    && match u with Some e => ok_e e | None => true end && ok_s s
  | SForIn _ p _ e s => ok_p p && ok_e e && ok_s s
  | SReturn o => match o with Some e => ok_e e | None => true end
  | STry b h l =>
      forallb ok_s b
      && match h with
         | Some (o, r) => match o with Some p => ok_p p | None => true end && forallb ok_s r
         | None => true
         end
      && match l with Some r => forallb ok_s r | None => true end
  | SSwitch e l =>
      ok_e e && forallb (fun c => match c with (o, b) => match o with Some e => ok_e e | None => true end && forallb ok_s b end) l
  | SFun x => ok_f x
  | SClass c => ok_c c
  | SLabel _ s => ok_s s
  end
with ok_i (i : init) : bool :=
  match i with
  | INone => true
  | IExpr e => ok_e e
  | IVar _ ds => forallb (fun d => match d with (p, o) => ok_p p && match o with Some e => ok_e e | None => true end end) ds
  end.
End Keys.

(** No literal that is there twice is a key or stands behind a tag. *)
Definition keys_once (whole : list element) (t : list stmt) : bool :=
  forallb (ok_s (fun e => negb (repeated whole e))) t.

(** The directives at the beginning of a program (11.2.1). *)
Fixpoint directives (t : list stmt) : list str :=
  match t with
  | SExpr (ELit (Text, s)) :: r => s :: directives r
  | _ => []
  end.

(** The parser of JsTreeSpec: its equations, and what may follow a phrase. *)
From Coq Require Import String Arith List NArith Bool Lia.
From Verif Require Import Base EsSpec JsPlainSpec JsTreeSpec.
Import ListNotations.
Open Scope N_scope.

Notation "'let?' p ':=' e 'in' f" := (match e with Some p => f | None => None end)
  (at level 200, p pattern, e at level 100, f at level 200).

(** ** The equations of the parser *)

Lemma p_expr_eq : forall (n : nat) (ts : list tok), p_expr (S n) ts =
 let? (e, r) := p_assign n ts in
      match eat (P ",") r with
      | Some r' => let? (x, s) := p_expr n r' in Some (EComma e x, s)
      | None => Some (e, r)
      end.
Proof. reflexivity. Qed.

Lemma p_assign_eq : forall (n : nat) (ts : list tok), p_assign (S n) ts =
 match arrow_start ts with
      | Some (a, r) =>
          let? (ps, r1) := p_arrow n r in
          let? r2 := eat (P "=>") r1 in
          if starts_with (P "{") r2 then let? (b, s) := p_body n r2 in Some (EArrowBody a ps b, s)
          else let? (e, s) := p_assign n r2 in Some (EArrow a ps e, s)
      | None =>
          match eat (K "yield") ts with
          | Some r =>
              if same_line r then
                match eat (P "*") r with
                | Some r' => let? (e, s) := p_assign n r' in Some (EYield true e, s)
                | None => let? (e, s) := p_assign n r in Some (EYield false e, s)
                end
              else None
          | None =>
              let? (e, r) := p_cond n ts in
              match r with
              | (_, (Punct, op)) :: r' =>
                  if is_text assign_ops op then
                    if assignable op e then let? (x, s) := p_assign n r' in Some (EAssign e op x, s) else None
                  else Some (e, r)
              | _ => Some (e, r)
              end
          end
      end.
Proof. reflexivity. Qed.

Lemma p_arrow_eq : forall (n : nat) (ts : list tok), p_arrow (S n) ts =
 match p_name ts with (Some x, r) => Some ([PName x], r) | (None, _) => p_params n ts end.
Proof. reflexivity. Qed.

Lemma p_cond_eq : forall (n : nat) (ts : list tok), p_cond (S n) ts =
 let? (c, r) := p_bin n 1 ts in
      match eat (P "?") r with
      | Some r1 =>
          let? (a, r2) := p_assign n r1 in
          let? r3 := eat (P ":") r2 in
          let? (b, r4) := p_assign n r3 in Some (ECond c a b, r4)
      | None => Some (c, r)
      end.
Proof. reflexivity. Qed.

Lemma p_bin_eq : forall (n p : nat) (ts : list tok), p_bin (S n) p ts =
 let? (e, r) := p_unary n ts in bin_loop n p e r.
Proof. reflexivity. Qed.

Lemma bin_loop_eq : forall (n p : nat) (e : expr) (ts : list tok), bin_loop (S n) p e ts =
 match ts with
      | (_, o) :: r =>
          match rank o with
          | Some q =>
              if (p <=? q)%nat then let? (x, s) := p_bin n (S q) r in bin_loop n p (EBin (snd o) e x) s
              else Some (e, ts)
          | None => Some (e, ts)
          end
      | [] => Some (e, ts)
      end.
Proof. reflexivity. Qed.

Lemma p_unary_eq : forall (n : nat) (ts : list tok), p_unary (S n) ts =
 match ts with
      | (_, o) :: r =>
          if prefix o then
            let? (e, s) := p_unary n r in
            if increments (snd o) && negb (target e) then None else Some (EPre (snd o) e, s)
          else
            let? (e, s) := p_post n ts in
            match eat (P "**") s with
            | Some s' => let? (x, s2) := p_unary n s' in Some (EBin (S_ "**") e x, s2)
            | None => Some (e, s)
            end
      | [] => None
      end.
Proof. reflexivity. Qed.

Lemma p_post_eq : forall (n : nat) (ts : list tok), p_post (S n) ts =
 let? (e, r) := p_left n ts in
      match r with
      | (false, (Punct, op)) :: s =>
          if increments op then if target e then Some (EPost e op, s) else None else Some (e, r)
      | _ => Some (e, r)
      end.
Proof. reflexivity. Qed.

Lemma p_left_eq : forall (n : nat) (ts : list tok), p_left (S n) ts =
 let? (e, r) := p_primary n ts in left_loop n e r.
Proof. reflexivity. Qed.

Lemma left_loop_eq : forall (n : nat) (e : expr) (ts : list tok), left_loop (S n) e ts =
 match ts with
      | (_, (Punct, op)) :: r =>
          if is_text ["."; "?."]%string op then
            match r with
            | (_, m) :: s =>
                if member_name m then left_loop n (EMember e op m) s
                else if str_eqb op (S_ "?.") then
                  if same m (P "[") then
                    let? (i, s1) := p_expr n s in let? s2 := eat (P "]") s1 in left_loop n (EOptIndex e i) s2
                  else if same m (P "(") then let? (l, s1) := p_list n (P ")") s in left_loop n (EOptCall e l) s1
                  else None
                else None
            | [] => None
            end
          else if str_eqb op (S_ "[") then
            let? (i, s) := p_expr n r in let? s' := eat (P "]") s in left_loop n (EIndex e i) s'
          else if str_eqb op (S_ "(") then
            let? (l, s) := p_list n (P ")") r in left_loop n (ECall e l) s
          else Some (e, ts)
      | (_, (Template, t)) :: r => left_loop n (ETag e (Template, t)) r
      | _ => Some (e, ts)
      end.
Proof. reflexivity. Qed.

Lemma p_primary_eq : forall (n : nat) (ts : list tok), p_primary (S n) ts =
 match ts with
      | (_, t) :: r =>
          if same t (P "(") then let? (e, s) := p_expr n r in let? s' := eat (P ")") s in Some (EParen e, s')
          else if same t (P "[") then let? (l, s) := p_list n (P "]") r in Some (EArray l, s)
          else if same t (P "{") then let? (l, s) := p_props n r in Some (EObject l, s)
          else if same t (K "function") || async_fun ts then let? (f, s) := p_function n ts in Some (EFun f, s)
          else if same t (K "class") then let? (c, s) := p_class n ts in Some (EClass c, s)
          else if same t (K "new") then
            match r with
            | (_, (Name, x)) :: r' =>
                if ident x then
                  let (path, s) := p_path r' in
                  match eat (P "(") s with
                  | Some s1 => let? (l, s2) := p_list n (P ")") s1 in Some (ENew x path (Some l), s2)
                  | None => Some (ENew x path None, s)
                  end
                else None
            | _ => None
            end
          else if kind_eqb (fst t) Name then if ident (snd t) then Some (EWord (snd t), r) else None
          else if literal t then Some (ELit t, r) else None
      | [] => None
      end.
Proof. reflexivity. Qed.

Lemma p_list_eq : forall (n : nat) (close : element) (ts : list tok), p_list (S n) close ts =
 match eat close ts with Some r => Some ([], r) | None => p_list1 n close ts end.
Proof. reflexivity. Qed.

Lemma p_list1_eq : forall (n : nat) (close : element) (ts : list tok), p_list1 (S n) close ts =
 let? (e, r) := p_item n ts in
      match eat (P ",") r with
      | Some r' => let? (l, s) := p_list n close r' in Some (e :: l, s)
      | None => let? s := eat close r in Some ([e], s)
      end.
Proof. reflexivity. Qed.

Lemma p_item_eq : forall (n : nat) (ts : list tok), p_item (S n) ts =
 match eat (P "...") ts with
      | Some r => let? (e, s) := p_assign n r in Some (ESpread e, s)
      | None => p_assign n ts
      end.
Proof. reflexivity. Qed.

Lemma p_props_eq : forall (n : nat) (ts : list tok), p_props (S n) ts =
 match eat (P "}") ts with Some r => Some ([], r) | None => p_props1 n ts end.
Proof. reflexivity. Qed.

Lemma p_props1_eq : forall (n : nat) (ts : list tok), p_props1 (S n) ts =
 let? (p, r) := p_prop n ts in
      match eat (P ",") r with
      | Some r' => let? (l, s) := p_props n r' in Some (p :: l, s)
      | None => let? s := eat (P "}") r in Some ([p], s)
      end.
Proof. reflexivity. Qed.

Lemma p_prop_eq : forall (n : nat) (ts : list tok), p_prop (S n) ts =
 match eat (P "...") ts with
      | Some r => let? (e, s) := p_assign n r in Some (OSpread e, s)
      | None =>
          let (h, r) := p_modif ts in
          let? (k, r1) := p_key n r in
          if starts_with (P "(") r1 then
            let? (ps, r2) := p_params n r1 in let? (b, r3) := p_body n r2 in Some (OMethod h k ps b, r3)
          else
            match h with
            | HPlain =>
                match eat (P ":") r1 with
                | Some r2 => let? (e, s) := p_assign n r2 in Some (OKey k e, s)
                | None => match k with KName (Name, x) => if binding x then Some (OShort x, r1) else None | _ => None end
                end
            | _ => None
            end
      end.
Proof. reflexivity. Qed.

Lemma p_key_eq : forall (n : nat) (ts : list tok), p_key (S n) ts =
 match ts with
      | (_, t) :: r =>
          if same t (P "[") then let? (e, s) := p_assign n r in let? s' := eat (P "]") s in Some (KExpr e, s')
          else if keyed t then Some (KName t, r) else None
      | [] => None
      end.
Proof. reflexivity. Qed.

Lemma p_function_eq : forall (n : nat) (ts : list tok), p_function (S n) ts =
 let? (a, g, r) := p_fun ts in
      let (x, r1) := p_name r in
      let? (ps, r2) := p_params n r1 in
      let? (b, r3) := p_body n r2 in Some (Func a g x ps b, r3).
Proof. reflexivity. Qed.

Lemma p_class_eq : forall (n : nat) (ts : list tok), p_class (S n) ts =
 let? r := eat (K "class") ts in
      let (x, r1) := p_name r in
      let? (o, r2) := p_ext n r1 in
      let? r3 := eat (P "{") r2 in
      let? (l, r4) := p_members n r3 in Some (Class x o l, r4).
Proof. reflexivity. Qed.

Lemma p_ext_eq : forall (n : nat) (ts : list tok), p_ext (S n) ts =
 match eat (K "extends") ts with
      | Some r => let? (e, s) := p_left n r in Some (Some e, s)
      | None => Some (None, ts)
      end.
Proof. reflexivity. Qed.

Lemma p_members_eq : forall (n : nat) (ts : list tok), p_members (S n) ts =
 match eat (P "}") ts with
      | Some r => Some ([], r)
      | None => let? (m, r) := p_member n ts in let? (l, s) := p_members n r in Some (m :: l, s)
      end.
Proof. reflexivity. Qed.

Lemma p_member_eq : forall (n : nat) (ts : list tok), p_member (S n) ts =
 match eat (P ";") ts with
      | Some r => Some (MEmpty, r)
      | None =>
          let (st, r0) := p_static ts in
          let (h, r) := p_modif r0 in
          let? (k, r1) := p_key n r in
          if starts_with (P "(") r1 then
            let? (ps, r2) := p_params n r1 in let? (b, r3) := p_body n r2 in Some (MMethod st h k ps b, r3)
          else
            match h with
            | HPlain =>
                match eat (P "=") r1 with
                | Some r2 => let? (e, r3) := p_assign n r2 in let? s := semicolon r3 in Some (MField st k (Some e), s)
                | None => let? s := semicolon r1 in Some (MField st k None, s)
                end
            | _ => None
            end
      end.
Proof. reflexivity. Qed.

Lemma p_params_eq : forall (n : nat) (ts : list tok), p_params (S n) ts =
 let? r := eat (P "(") ts in p_elems n (P ")") r.
Proof. reflexivity. Qed.

Lemma p_elems_eq : forall (n : nat) (close : element) (ts : list tok), p_elems (S n) close ts =
 match eat close ts with Some r => Some ([], r) | None => p_elems1 n close ts end.
Proof. reflexivity. Qed.

Lemma p_elems1_eq : forall (n : nat) (close : element) (ts : list tok), p_elems1 (S n) close ts =
 match eat (P "...") ts with
      | Some r => let? (p, s) := p_pat n r in let? s' := eat close s in Some ([PRest p], s')
      | None =>
          let? (p, r) := p_elem n ts in
          match eat (P ",") r with
          | Some r' => let? (l, s) := p_elems n close r' in Some (p :: l, s)
          | None => let? s := eat close r in Some ([p], s)
          end
      end.
Proof. reflexivity. Qed.

Lemma p_elem_eq : forall (n : nat) (ts : list tok), p_elem (S n) ts =
 let? (p, r) := p_pat n ts in
      match eat (P "=") r with
      | Some r' => let? (e, s) := p_assign n r' in Some (PDefault p e, s)
      | None => Some (p, r)
      end.
Proof. reflexivity. Qed.

Lemma p_pat_eq : forall (n : nat) (ts : list tok), p_pat (S n) ts =
 match ts with
      | (_, t) :: r =>
          if same t (P "[") then let? (l, s) := p_elems n (P "]") r in Some (PArray l, s)
          else if same t (P "{") then let? (l, s) := p_fields n r in Some (PObject l, s)
          else match p_name ts with (Some x, s) => Some (PName x, s) | (None, _) => None end
      | [] => None
      end.
Proof. reflexivity. Qed.

Lemma p_fields_eq : forall (n : nat) (ts : list tok), p_fields (S n) ts =
 match eat (P "}") ts with Some r => Some ([], r) | None => p_fields1 n ts end.
Proof. reflexivity. Qed.

Lemma p_fields1_eq : forall (n : nat) (ts : list tok), p_fields1 (S n) ts =
 let? (p, r) := p_field n ts in
      match eat (P ",") r with
      | Some r' => let? (l, s) := p_fields n r' in Some (p :: l, s)
      | None => let? s := eat (P "}") r in Some ([p], s)
      end.
Proof. reflexivity. Qed.

Lemma p_field_eq : forall (n : nat) (ts : list tok), p_field (S n) ts =
 match eat (P "...") ts with
      | Some r => match p_name r with (Some x, s) => Some (PRest (PName x), s) | (None, _) => None end
      | None =>
          let? (k, r) := p_key n ts in
          match eat (P ":") r with
          | Some r1 => let? (p, s) := p_elem n r1 in Some (PKey k p, s)
          | None =>
              match k with
              | KName (Name, x) =>
                  if binding x then
                    match eat (P "=") r with
                    | Some r1 => let? (e, s) := p_assign n r1 in Some (PDefault (PName x) e, s)
                    | None => Some (PName x, r)
                    end
                  else None
              | _ => None
              end
          end
      end.
Proof. reflexivity. Qed.

Lemma p_body_eq : forall (n : nat) (ts : list tok), p_body (S n) ts =
 let? r := eat (P "{") ts in let? (l, s) := p_stmts n r in let? s' := eat (P "}") s in Some (l, s').
Proof. reflexivity. Qed.

Lemma p_stmts_eq : forall (n : nat) (ts : list tok), p_stmts (S n) ts =
 if stmts_end ts then Some ([], ts)
      else let? (s, r) := p_stmt n ts in let? (l, r') := p_stmts n r in Some (s :: l, r').
Proof. reflexivity. Qed.

Lemma p_stmt_eq : forall (n : nat) (ts : list tok), p_stmt (S n) ts =
 match label ts with
      | Some (x, r) => let? (s, r') := p_stmt n r in Some (SLabel x s, r')
      | None =>
      if opening ts then let? (e, r) := p_expr n ts in let? s := semicolon r in Some (SExpr e, s)
      else
      match ts with
      | [] => None
      | (_, t) :: r =>
          if same t (P ";") then Some (SEmpty, r)
          else if same t (P "{") then let? (l, s) := p_body n ts in Some (SBlock l, s)
          else if named kinds t then
            let? (ds, s) := p_decls n r in let? s' := semicolon s in Some (SVar (snd t) ds, s')
          else if same t (K "if") then
            let? r1 := eat (P "(") r in
            let? (c, r2) := p_expr n r1 in
            let? r3 := eat (P ")") r2 in
            let? (x, r4) := p_stmt n r3 in
            match eat (K "else") r4 with
            | Some r5 => let? (y, r6) := p_stmt n r5 in Some (SIf c x (Some y), r6)
            | None => Some (SIf c x None, r4)
            end
          else if same t (K "while") then
            let? r1 := eat (P "(") r in
            let? (c, r2) := p_expr n r1 in
            let? r3 := eat (P ")") r2 in
            let? (x, r4) := p_stmt n r3 in Some (SWhile c x, r4)
          else if same t (K "do") then
            let? (x, r1) := p_stmt n r in
            let? r2 := eat (K "while") r1 in
            let? r3 := eat (P "(") r2 in
            let? (c, r4) := p_expr n r3 in
            let? r5 := eat (P ")") r4 in
            match semicolon r5 with Some r6 => Some (SDo x c, r6) | None => Some (SDo x c, r5) end
          else if same t (K "for") then
            let? r1 := eat (P "(") r in
            match for_in r1 with
            | Some (x, w, r2) =>
                let? (e, r3) := p_expr n r2 in
                let? r4 := eat (P ")") r3 in
                let? (s, r5) := p_stmt n r4 in Some (SForIn [] (PName x) w e s, r5)
            | None =>
            match p_for n r1 with
            | Some (k, p, w, r2) =>
                let? (e, r3) := p_expr n r2 in
                let? r4 := eat (P ")") r3 in
                let? (s, r5) := p_stmt n r4 in Some (SForIn k p w e s, r5)
            | None =>
                let? (i, r2) := p_init n r1 in
                let? r3 := eat (P ";") r2 in
                let? (c, r4) := p_opt n (P ";") r3 in
                let? r5 := eat (P ";") r4 in
                let? (u, r6) := p_opt n (P ")") r5 in
                let? r7 := eat (P ")") r6 in
                let? (s, r8) := p_stmt n r7 in Some (SFor i c u s, r8)
            end
            end
          else if same t (K "return") then
            if no_value r then let? s := semicolon r in Some (SReturn None, s)
            else let? (e, s) := p_expr n r in let? s' := semicolon s in Some (SReturn (Some e), s')
          else if same t (K "throw") then
            if no_value r then None
            else let? (e, s) := p_expr n r in let? s' := semicolon s in Some (SThrow e, s')
          else if named ["break"; "continue"; "debugger"]%string t then
            if no_value r then let? s := semicolon r in Some (SJump (snd t) None, s)
            else match p_name r with
                 | (Some x, r1) => let? s := semicolon r1 in Some (SJump (snd t) (Some x), s)
                 | (None, _) => None
                 end
          else if same t (K "try") then
            let? (b, r1) := p_body n r in
            let? (h, r2) := p_handler n r1 in
            let? (f, r3) := p_final n r2 in
            match h, f with None, None => None | _, _ => Some (STry b h f, r3) end
          else if same t (K "switch") then
            let? r1 := eat (P "(") r in
            let? (e, r2) := p_expr n r1 in
            let? r3 := eat (P ")") r2 in
            let? r4 := eat (P "{") r3 in
            let? (l, r5) := p_cases n r4 in
            let? r6 := eat (P "}") r5 in Some (SSwitch e l, r6)
          else if same t (K "function") || async_fun ts then
            let? (f, s) := p_function n ts in
            match f with Func _ _ (Some _) _ _ => Some (SFun f, s) | _ => None end
          else if same t (K "class") then
            let? (c, s) := p_class n ts in
            match c with Class (Some _) _ _ => Some (SClass c, s) | _ => None end
          else None
      end
      end.
Proof. reflexivity. Qed.

Lemma p_for_eq : forall (n : nat) (ts : list tok), p_for (S n) ts =
 match ts with
      | (_, t) :: r =>
          if named kinds t then
            let? (p, s) := p_pat n r in
            match s with
            | (_, w) :: s' => if named ["in"; "of"]%string w then Some (snd t, p, snd w, s') else None
            | [] => None
            end
          else None
      | [] => None
      end.
Proof. reflexivity. Qed.

Lemma p_decls_eq : forall (n : nat) (ts : list tok), p_decls (S n) ts =
 let? (d, r) := p_decl n ts in
      match eat (P ",") r with
      | Some r' => let? (l, s) := p_decls n r' in Some (d :: l, s)
      | None => Some ([d], r)
      end.
Proof. reflexivity. Qed.

Lemma p_decl_eq : forall (n : nat) (ts : list tok), p_decl (S n) ts =
 let? (p, r) := p_pat n ts in
      match eat (P "=") r with
      | Some r' => let? (e, s) := p_assign n r' in Some ((p, Some e), s)
      | None => Some ((p, None), r)
      end.
Proof. reflexivity. Qed.

Lemma p_init_eq : forall (n : nat) (ts : list tok), p_init (S n) ts =
 match ts with
      | (_, t) :: r =>
          if same t (P ";") then Some (INone, ts)
          else if named kinds t then let? (ds, s) := p_decls n r in Some (IVar (snd t) ds, s)
          else let? (e, s) := p_expr n ts in Some (IExpr e, s)
      | [] => None
      end.
Proof. reflexivity. Qed.

Lemma p_opt_eq : forall (n : nat) (close : element) (ts : list tok), p_opt (S n) close ts =
 if starts_with close ts then Some (None, ts) else let? (e, s) := p_expr n ts in Some (Some e, s).
Proof. reflexivity. Qed.

Lemma p_handler_eq : forall (n : nat) (ts : list tok), p_handler (S n) ts =
 match eat (K "catch") ts with
      | None => Some (None, ts)
      | Some r =>
          match eat (P "(") r with
          | Some r1 =>
              let? (p, r2) := p_pat n r1 in
              let? r3 := eat (P ")") r2 in let? (b, s) := p_body n r3 in Some (Some (Some p, b), s)
          | None => let? (b, s) := p_body n r in Some (Some (None, b), s)
          end
      end.
Proof. reflexivity. Qed.

Lemma p_final_eq : forall (n : nat) (ts : list tok), p_final (S n) ts =
 match eat (K "finally") ts with
      | None => Some (None, ts)
      | Some r => let? (b, s) := p_body n r in Some (Some b, s)
      end.
Proof. reflexivity. Qed.

Lemma p_cases_eq : forall (n : nat) (ts : list tok), p_cases (S n) ts =
 match p_case n ts with
      | Some (c, r) => let? (l, s) := p_stmts n r in let? (m, s') := p_cases n s in Some ((c, l) :: m, s')
      | None => Some ([], ts)
      end.
Proof. reflexivity. Qed.

Lemma p_case_eq : forall (n : nat) (ts : list tok), p_case (S n) ts =
 match eat (K "default") ts with
      | Some r => let? s := eat (P ":") r in Some (None, s)
      | None =>
          let? r := eat (K "case") ts in
          let? (e, s) := p_expr n r in let? s' := eat (P ":") s in Some (Some e, s')
      end.
Proof. reflexivity. Qed.

(** ** Words and signs *)

Lemma kind_eqb_eq : forall a b, kind_eqb a b = true -> a = b.
Proof. intros [] [] H; (reflexivity || discriminate H). Qed.

Lemma same_eq : forall a b, same a b = true -> a = b.
Proof.
  intros [k s] [k' s'] H. unfold same in H. cbn [fst snd] in H. apply andb_true_iff in H. destruct H as [H1 H2].
  apply kind_eqb_eq in H1. apply str_eqb_eq in H2. subst. reflexivity.
Qed.

Lemma same_refl : forall a, same a a = true.
Proof. intros [k s]. unfold same. cbn [fst snd]. rewrite (proj2 (str_eqb_eq s s) eq_refl). destruct k; reflexivity. Qed.

Lemma is_text_in : forall l x, is_text l x = true -> In x (map S_ l).
Proof. intros l x H. unfold is_text in H. apply existsb_exists in H. destruct H as (y & I & E). apply str_eqb_eq in E. subst. exact I. Qed.

Lemma named_eq : forall l e, named l e = true -> exists x, e = (Name, x) /\ In x (map S_ l).
Proof.
  intros l [k x] H. unfold named in H. cbn [fst snd] in H. apply andb_true_iff in H. destruct H as [H1 H2]. apply kind_eqb_eq in H1. subst k.
  exists x. split; [reflexivity|]. exact (is_text_in _ _ H2).
Qed.

Lemma rank_in : forall o q, rank o = Some q -> In (o, q) ranks.
Proof.
  intros o q H. unfold rank in H. destruct (find _ ranks) as [[o' q']|] eqn:F; [|discriminate H]. injection H as <-.
  apply find_some in F. destruct F as [I E]. cbn [fst] in E. apply same_eq in E. subst o'. exact I.
Qed.

Lemma prefix_in : forall o, prefix o = true -> In o prefixes.
Proof. intros o H. unfold prefix in H. apply existsb_exists in H. destruct H as (y & I & E). apply same_eq in E. subst. exact I. Qed.

Lemma eat_same : forall e b r, eat e ((b, e) :: r) = Some r.
Proof. intros. unfold eat. cbn [snd]. rewrite same_refl. reflexivity. Qed.

Lemma eat_none : forall e ts, starts_with e ts = false -> eat e ts = None.
Proof. intros e [|t ts] H; [reflexivity|]. unfold starts_with in H. unfold eat. rewrite H. reflexivity. Qed.

(** ** What may follow *)

Definition fl_left (r : list tok) : bool :=
  match r with (_, (Punct, op)) :: _ => negb (is_text ["."; "?."; "["; "("]%string op) | (_, (Template, _)) :: _ => false | _ => true end.
Definition fl_post (r : list tok) : bool :=
  fl_left r && match r with (false, (Punct, op)) :: _ => negb (increments op) | _ => true end.
Definition fl_unary (r : list tok) : bool := fl_post r && negb (starts_with (P "**") r).
Definition fl_bin (q : nat) (r : list tok) : bool :=
  fl_unary r && match r with (_, o) :: _ => match rank o with Some k => (k <=? q)%nat | None => true end | [] => true end.
Definition fl_cond (r : list tok) : bool := fl_bin 0 r && negb (starts_with (P "?") r).
Definition fl_assign (r : list tok) : bool :=
  fl_cond r && match r with (_, (Punct, op)) :: _ => negb (is_text assign_ops op) | _ => true end && negb (arrow_next r).
Definition fl_expr (r : list tok) : bool := fl_assign r && negb (starts_with (P ",") r).

Lemma fl_expr_assign : forall r, fl_expr r = true -> fl_assign r = true.
Proof. intros r H. apply andb_true_iff in H. exact (proj1 H). Qed.
Lemma fl_assign_cond : forall r, fl_assign r = true -> fl_cond r = true.
Proof. intros r H. apply andb_true_iff in H. destruct H as [H _]. apply andb_true_iff in H. exact (proj1 H). Qed.
Lemma fl_assign_arrow : forall r, fl_assign r = true -> arrow_next r = false.
Proof. intros r H. apply andb_true_iff in H. apply negb_true_iff. exact (proj2 H). Qed.
Lemma fl_cond_bin : forall r, fl_cond r = true -> fl_bin 0 r = true.
Proof. intros r H. apply andb_true_iff in H. exact (proj1 H). Qed.
Lemma fl_bin_unary : forall q r, fl_bin q r = true -> fl_unary r = true.
Proof. intros q r H. apply andb_true_iff in H. exact (proj1 H). Qed.
Lemma fl_unary_post : forall r, fl_unary r = true -> fl_post r = true.
Proof. intros r H. apply andb_true_iff in H. exact (proj1 H). Qed.
Lemma fl_bin_post : forall q r, fl_bin q r = true -> fl_post r = true.
Proof. intros q r H. exact (fl_unary_post _ (fl_bin_unary q r H)). Qed.
Lemma fl_post_left : forall r, fl_post r = true -> fl_left r = true.
Proof. intros r H. apply andb_true_iff in H. exact (proj1 H). Qed.

Lemma fl_bin_more : forall p q r, (p <= q)%nat -> fl_bin p r = true -> fl_bin q r = true.
Proof.
  intros p q r L H. unfold fl_bin in *. apply andb_true_iff in H. destruct H as [H1 H2]. rewrite H1. cbn [andb].
  destruct r as [|[b o] r]; [reflexivity|]. destruct (rank o); [|reflexivity]. apply Nat.leb_le in H2. apply Nat.leb_le. lia.
Qed.

Lemma fl_rank : forall b o q us, rank o = Some q -> fl_bin q ((b, o) :: us) = true.
Proof.
  intros b o q us H. apply rank_in in H. unfold ranks in H. cbn [In] in H.
  repeat (destruct H as [H|H]; [injection H as <- <-; destruct b; reflexivity|]). destruct H.
Qed.

Lemma rank_pos : forall o q, rank o = Some q -> (1 <= q)%nat.
Proof.
  intros o q H. apply rank_in in H. unfold ranks in H. cbn [In] in H.
  repeat (destruct H as [H|H]; [injection H as <- <-; lia|]). destruct H.
Qed.

Lemma fl_assign_op : forall b op us, is_text assign_ops op = true -> fl_cond ((b, (Punct, op)) :: us) = true.
Proof.
  intros b op us H. apply is_text_in in H. unfold assign_ops in H. cbn [map In] in H.
  repeat (destruct H as [H|H]; [subst op; destruct b; reflexivity|]). destruct H.
Qed.

Lemma left_stop : forall n e r, fl_left r = true -> left_loop (S n) e r = Some (e, r).
Proof.
  intros n e r H. rewrite left_loop_eq. destruct r as [|[b [k op]] r]; [reflexivity|]. destruct k; try reflexivity; [|discriminate H].
  unfold fl_left in H. apply negb_true_iff in H. unfold is_text in *. cbn [map existsb] in *.
  apply orb_false_elim in H. destruct H as [H1 H]. apply orb_false_elim in H. destruct H as [H2 H]. apply orb_false_elim in H. destruct H as [H3 H]. apply orb_false_elim in H. destruct H as [H4 _].
  rewrite H1, H2, H3, H4. reflexivity.
Qed.

Lemma bin_stop : forall n p q e r, (q < p)%nat -> fl_bin q r = true -> bin_loop (S n) p e r = Some (e, r).
Proof.
  intros n p q e r L H. rewrite bin_loop_eq. destruct r as [|[b o] r]; [reflexivity|]. unfold fl_bin in H. apply andb_true_iff in H. destruct H as [_ H].
  destruct (rank o) as [k|]; [|reflexivity]. apply Nat.leb_le in H. rewrite (proj2 (Nat.leb_gt p k)) by lia. reflexivity.
Qed.

Lemma bin_step : forall n p q b o e r, rank o = Some q -> (p <= q)%nat ->
  bin_loop (S n) p e ((b, o) :: r) = let? (x, s) := p_bin n (S q) r in bin_loop n p (EBin (snd o) e x) s.
Proof. intros n p q b o e r R L. rewrite bin_loop_eq, R, (proj2 (Nat.leb_le p q) L). reflexivity. Qed.

(** ** Heads *)

Definition hd_ok (f : element -> bool) (ts : list tok) : Prop := match ts with t :: _ => f (snd t) = true | [] => False end.

(** The first tokens of expressions, of expressions without prefix operator, and of statements. *)
Definition starter (e : element) : bool :=
  negb (same e (P ")") || same e (P "]") || same e (P "}") || same e (P ";") || same e (P "*") || same e (P "...")).
Definition simple (e : element) : bool := starter e && negb (prefix e).
Definition st_start (e : element) : bool :=
  negb (same e (P "}") || same e (K "case") || same e (K "default") || same e (K "else") || same e (K "catch") || same e (K "finally")).

Lemma hd_app : forall f ts us, hd_ok f ts -> hd_ok f (ts ++ us).
Proof. intros f [|t ts] us H; [destruct H|exact H]. Qed.

Lemma hd_imp : forall (f g : element -> bool) ts, (forall e, f e = true -> g e = true) -> hd_ok f ts -> hd_ok g ts.
Proof. intros f g [|t ts] I H; [destruct H|exact (I _ H)]. Qed.

Lemma simple_starter : forall e, simple e = true -> starter e = true.
Proof. intros e H. apply andb_true_iff in H. exact (proj1 H). Qed.

Lemma hd_length : forall f ts, hd_ok f ts -> (1 <= length ts)%nat.
Proof. intros f [|t ts] H; [destruct H|cbn [length]; lia]. Qed.

Lemma hd_not : forall f e ts, hd_ok f ts -> f e = false -> starts_with e ts = false.
Proof. intros f e [|t ts] H E; [reflexivity|]. cbn [hd_ok] in H. unfold starts_with. destruct (same (snd t) e) eqn:S; [|reflexivity]. apply same_eq in S. rewrite S in H. congruence. Qed.

Lemma starts_app : forall e ts us, ts <> [] -> starts_with e (ts ++ us) = starts_with e ts.
Proof. intros e [|t ts] us H; [congruence|reflexivity]. Qed.

Lemma ident_simple : forall x, ident x = true -> simple (Name, x) = true.
Proof.
  intros x H. unfold simple. apply andb_true_iff. split; [reflexivity|]. apply negb_true_iff. destruct (prefix (Name, x)) eqn:Q; [|reflexivity].
  apply prefix_in in Q. unfold prefixes in Q. cbn [In] in Q. repeat (destruct Q as [Q|Q]; [try discriminate Q; injection Q as <-; discriminate H|]). destruct Q.
Qed.

Lemma prefix_starter : forall o, prefix o = true -> starter o = true.
Proof.
  intros o Q. apply prefix_in in Q. unfold prefixes in Q. cbn [In] in Q. repeat (destruct Q as [<-|Q]; [reflexivity|]). destruct Q.
Qed.

Lemma opening_start : forall t ts, opening (t :: ts) = true -> st_start (snd t) = true.
Proof.
  intros [b e] ts H. cbn [snd]. unfold st_start. apply negb_true_iff.
  repeat (apply orb_false_intro); (destruct (same e _) eqn:S; [apply same_eq in S; subst e; discriminate H|reflexivity]).
Qed.

Lemma ident_reserved : forall x k, ident x = true -> ident (S_ k) = false -> same (Name, x) (K k) = false.
Proof. intros x k H F. destruct (same (Name, x) (K k)) eqn:Q; [|reflexivity]. apply same_eq in Q. injection Q as ->. congruence. Qed.

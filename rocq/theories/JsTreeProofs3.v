(** Statements and programs: what the grammar of JsTreeSpec writes, its parser reads. *)
From Coq Require Import String Arith List NArith Bool Lia.
From Verif Require Import Base EsSpec JsPlainSpec JsTreeSpec JsTreeProofs1 JsTreeProofs6 JsTreeProofs2.
Import ListNotations.
Open Scope N_scope.

(** ** What may follow a statement *)

Definition st_next (c : bool) (r : list tok) : bool :=
  negb (starts_with (K "catch") r || starts_with (K "finally") r) && (c || negb (starts_with (K "else") r)).
Definition follow (last c : bool) (r : list tok) : bool := if last then ends r else st_next c r.

Lemma ends_next : forall c r, ends r = true -> st_next c r = true.
Proof. intros c [|[b t] r] H; [destruct c; reflexivity|]. cbn [ends snd] in H. apply same_eq in H. subst t. destruct c; reflexivity. Qed.

Lemma follow_next : forall last c r, follow last c r = true -> st_next c r = true.
Proof. intros [] c r H; [exact (ends_next c r H)|exact H]. Qed.

Lemma follow_less : forall last c r, follow last false r = true -> follow last c r = true.
Proof. intros [] c r H; [exact H|]. unfold follow, st_next in *. apply andb_true_iff in H. destruct H as [H1 H2]. rewrite H1. cbn [orb] in H2. rewrite H2. destruct c; reflexivity. Qed.

Lemma next_true : forall c r, st_next c r = true -> st_next true r = true.
Proof. intros c r H. unfold st_next in *. apply andb_true_iff in H. rewrite (proj1 H). reflexivity. Qed.

Lemma stmts_end_next : forall c r, stmts_end r = true -> st_next c r = true.
Proof.
  intros c [|[b t] r] H; [destruct c; reflexivity|]. cbn [stmts_end snd] in H. apply orb_true_iff in H. destruct H as [H|H]; [apply orb_true_iff in H; destruct H as [H|H]|];
    apply same_eq in H; subst t; destruct c; reflexivity.
Qed.

Lemma start_next : forall c ts r, hd_ok st_start ts -> st_next c (ts ++ r) = true.
Proof.
  intros c ts r H. apply (hd_app _ _ r) in H. unfold st_next. rewrite (hd_not _ (K "catch") _ H eq_refl), (hd_not _ (K "finally") _ H eq_refl), (hd_not _ (K "else") _ H eq_refl). destruct c; reflexivity.
Qed.

Lemma start_end : forall ts r, hd_ok st_start ts -> stmts_end (ts ++ r) = false.
Proof.
  intros ts r H. apply (hd_app _ _ r) in H. destruct (ts ++ r) as [|t l]; [destruct H|].
  pose proof (hd_not _ (P "}") _ H eq_refl) as H1. pose proof (hd_not _ (K "case") _ H eq_refl) as H2. pose proof (hd_not _ (K "default") _ H eq_refl) as H3.
  unfold starts_with in H1, H2, H3. unfold stmts_end. rewrite H1, H2, H3. reflexivity.
Qed.

(** The end of a statement. *)
Lemma end_semicolon : forall last c us r, w_end last us -> follow last c r = true -> semicolon (us ++ r) = Some r.
Proof.
  intros last c us r W F. destruct W as [last b|]; [reflexivity|]. cbn [app follow] in *. destruct r as [|[b t] r]; [reflexivity|].
  cbn [ends snd] in F. apply same_eq in F. subst t. reflexivity.
Qed.

Lemma end_expr : forall last c us r, w_end last us -> follow last c r = true -> fl_expr (us ++ r) = true.
Proof.
  intros last c us r W F. destruct W as [last b|]; [destruct b; reflexivity|]. cbn [app follow] in *. destruct r as [|[b t] r]; [reflexivity|].
  cbn [ends snd] in F. apply same_eq in F. subst t. destruct b; reflexivity.
Qed.

Lemma end_value : forall last c us r, w_end last us -> follow last c r = true -> no_value (us ++ r) = true.
Proof.
  intros last c us r W F. destruct W as [last b|]; [reflexivity|]. cbn [app follow] in *. destruct r as [|[b t] r]; [reflexivity|].
  cbn [ends snd] in F. apply same_eq in F. subst t. reflexivity.
Qed.

Lemma end_colon : forall last c us r, w_end last us -> follow last c r = true -> starts_with (P ":") (us ++ r) = false.
Proof.
  intros last c us r W F. destruct W as [last b|]; [reflexivity|]. cbn [app follow] in *. destruct r as [|[b t] r]; [reflexivity|].
  cbn [ends snd] in F. apply same_eq in F. subst t. reflexivity.
Qed.

Lemma some_value : forall ts r, hd_ok starter ts -> same_line ts = true -> no_value (ts ++ r) = false.
Proof.
  intros [|[b t] ts] r H L; [destruct H|]. cbn [same_line fst] in L. apply negb_true_iff in L. subst b.
  pose proof (hd_not _ (P "}") _ H eq_refl) as H1. pose proof (hd_not _ (P ";") _ H eq_refl) as H2. unfold starts_with in H1, H2.
  cbn [app no_value fst]. rewrite H1, H2. reflexivity.
Qed.

(** ** What is claimed of each kind of phrase *)

Definition R_stmt (last : bool) (s : stmt) (ts : list tok) : Prop := hd_ok st_start ts
  /\ forall n r, (10 * length ts + 11 <= n)%nat -> follow last (closed s) r = true -> p_stmt n (ts ++ r) = Some (s, r).
Definition R_stmts1 (last : bool) (l : list stmt) (ts : list tok) : Prop := hd_ok st_start ts
  /\ forall n r, (10 * length ts + 12 <= n)%nat -> stmts_end r = true -> (last = true -> ends r = true) -> p_stmts n (ts ++ r) = Some (l, r).
Definition R_stmts (last : bool) (l : list stmt) (ts : list tok) : Prop :=
  forall n r, (10 * length ts + 12 <= n)%nat -> stmts_end r = true -> (last = true -> ends r = true) -> p_stmts n (ts ++ r) = Some (l, r).
Definition not_in (r : list tok) : bool := match r with (_, w) :: _ => negb (named ["in"; "of"]%string w) | [] => true end.
Definition first_pat (ts : list tok) : Prop := forall n r, (10 * length ts <= n)%nat -> not_in r = true -> exists p s, p_pat n (ts ++ r) = Some (p, s) /\ not_in s = true.
Definition R_decls (l : list (pat * option expr)) (ts : list tok) : Prop := first_pat ts
  /\ forall n r, (10 * length ts + 2 <= n)%nat -> fl_expr r = true -> p_decls n (ts ++ r) = Some (l, r).
Definition R_decl (d : pat * option expr) (ts : list tok) : Prop := first_pat ts /\ (1 <= length ts)%nat
  /\ forall n r, (10 * length ts + 1 <= n)%nat -> fl_assign r = true -> p_decl n (ts ++ r) = Some (d, r).
Definition R_init (i : init) (ts : list tok) : Prop :=
  (forall n b r, (10 * length ts + 11 <= n)%nat -> p_init n (ts ++ (b, P ";") :: r) = Some (i, (b, P ";") :: r))
  /\ forall b r, for_in (ts ++ (b, P ";") :: r) = None /\ forall n, (10 * length ts + 11 <= n)%nat -> p_for n (ts ++ (b, P ";") :: r) = None.
Definition R_opt (o : option expr) (ts : list tok) : Prop :=
  forall n close b r, close = P ";" \/ close = P ")" -> (10 * length ts + 11 <= n)%nat ->
    p_opt n close (ts ++ (b, close) :: r) = Some (o, (b, close) :: r).
Definition R_handler (h : option (option pat * list stmt)) (ts : list tok) : Prop := (h = None -> ts = [])
  /\ forall n r, (10 * length ts + 1 <= n)%nat -> (h = None -> starts_with (K "catch") r = false) -> p_handler n (ts ++ r) = Some (h, r).
Definition R_final (f : option (list stmt)) (ts : list tok) : Prop := (f = None -> ts = []) /\ (f <> None -> starts_with (K "catch") ts = false /\ ts <> [])
  /\ forall n r, (10 * length ts + 1 <= n)%nat -> (f = None -> starts_with (K "finally") r = false) -> p_final n (ts ++ r) = Some (f, r).
Definition R_cases (l : list (option expr * list stmt)) (ts : list tok) : Prop := (l <> [] -> forall r, stmts_end (ts ++ r) = true)
  /\ forall n b r, (10 * length ts + 2 <= n)%nat -> p_cases n (ts ++ (b, P "}") :: r) = Some (l, (b, P "}") :: r).
Definition R_case (c : option expr) (ts : list tok) : Prop := (2 <= length ts)%nat /\ (forall r, stmts_end (ts ++ r) = true)
  /\ forall n r, (10 * length ts + 1 <= n)%nat -> p_case n (ts ++ r) = Some (c, r).

(** ** Statement lists *)

Lemma r_wd_body : forall l ts b c, R_stmts true l ts -> R_body l ((b, P "{") :: ts ++ [(c, P "}")]).
Proof.
  intros l ts b c A. split; [reflexivity|]. split; [len|]. intros n r L. destruct n as [|n]; [len|]. norm.
  rewrite p_body_eq, eat_same, A; [|len|reflexivity|reflexivity]. rewrite eat_same. reflexivity.
Qed.

Lemma stmts_none : forall n r, stmts_end r = true -> p_stmts (S n) r = Some ([], r).
Proof. intros n r H. rewrite p_stmts_eq, H. reflexivity. Qed.

Lemma r_ws_none : forall last, R_stmts last [] [].
Proof. intros last n r L E _. destruct n as [|n]; [len|]. apply stmts_none, E. Qed.

Lemma r_ws_some : forall last l ts, R_stmts1 last l ts -> R_stmts last l ts.
Proof. intros last l ts [_ A]. exact A. Qed.

Lemma r_ws_one : forall last s ts, R_stmt last s ts -> R_stmts1 last [s] ts.
Proof.
  intros last s ts [H A]. split; [exact H|]. intros n r L E En. pose proof (hd_length _ _ H) as L1. destruct n as [|[|n]]; [len|len|].
  rewrite p_stmts_eq, (start_end ts r H), A; [|len|destruct last; [exact (En eq_refl)|exact (stmts_end_next _ _ E)]]. rewrite stmts_none by exact E. reflexivity.
Qed.

Lemma r_ws_cons : forall last s l ts us, R_stmt false s ts -> R_stmts1 last l us -> R_stmts1 last (s :: l) (ts ++ us).
Proof.
  intros last s l ts us [H A] [H2 B]. split; [apply hd_app, H|]. intros n r L E En. pose proof (hd_length _ _ H) as L1. destruct n as [|n]; [len|]. norm.
  rewrite p_stmts_eq, (start_end ts _ H), A; [|len|exact (start_next _ _ _ H2)]. rewrite B; [reflexivity|len|exact E|exact En].
Qed.

(** ** Statements *)

Lemma r_wt_empty : forall last b, R_stmt last SEmpty [(b, P ";")].
Proof. intros last b. split; [reflexivity|]. intros n r L F. destruct n as [|n]; [len|]. reflexivity. Qed.

Lemma opening_app : forall ts us, opening ts = true -> opening (ts ++ us) = true.
Proof.
  intros [|t [|u ts]] us H; [discriminate H| |exact H]. cbn [app]. unfold opening, async_fun in *. apply andb_true_iff in H. destruct H as [H1 H2]. rewrite H1.
  apply negb_true_iff in H2. rewrite andb_true_r in H2. rewrite H2. reflexivity.
Qed.

Lemma r_wt_expr : forall last e ts us, w_expr e ts -> R_expr e ts -> opening ts = true -> w_end last us -> R_stmt last (SExpr e) (ts ++ us).
Proof.
  intros last e ts us Wx [H A] O W. split.
  - apply hd_app. destruct ts as [|t ts]; [destruct H|]. exact (opening_start t ts O).
  - intros n r L F. destruct n as [|n]; [len|]. norm. rewrite p_stmt_eq, (label_expr e ts _ Wx (end_colon _ _ _ _ W F)), (opening_app ts _ O), A; [|len|exact (end_expr _ _ _ _ W F)].
    rewrite (end_semicolon _ _ _ _ W F). reflexivity.
Qed.

Ltac kind_of H := apply is_text_in in H; cbn [kinds map In] in H.

Lemma r_wt_var : forall last k ds ts us b, is_text kinds k = true -> R_decls ds ts -> w_end last us ->
  R_stmt last (SVar k ds) ((b, (Name, k)) :: ts ++ us).
Proof.
  intros last k ds ts us b I [_ A] W. kind_of I. split; [destruct I as [<-|[<-|[<-|[]]]]; reflexivity|].
  intros n r L F. destruct n as [|n]; [len|]. norm. rewrite p_stmt_eq. destruct I as [<-|[<-|[<-|[]]]]; heads.
  all: rewrite A; [|len|exact (end_expr _ _ _ _ W F)]; rewrite (end_semicolon _ _ _ _ W F); reflexivity.
Qed.

Lemma r_wt_block : forall last l ts, R_body l ts -> R_stmt last (SBlock l) ts.
Proof.
  intros last l ts (S & L2 & A). destruct ts as [|[b t] ts]; [discriminate S|]. cbn [starts_with snd] in S. apply same_eq in S. subst t. split; [reflexivity|].
  intros n r L F. destruct n as [|n]; [len|]. rewrite p_stmt_eq. cbn [app] in *. heads. rewrite A; [reflexivity|len].
Qed.

Lemma r_wt_if : forall last c s ts us b d f, R_expr c ts -> R_stmt last s us ->
  R_stmt last (SIf c s None) ((b, K "if") :: (d, P "(") :: ts ++ (f, P ")") :: us).
Proof.
  intros last c s ts us b d f [H A] [H2 B]. split; [reflexivity|]. intros n r L F. destruct n as [|n]; [len|]. norm. rewrite p_stmt_eq. heads.
  rewrite eat_same, A; [|len|fl]. rewrite eat_same, B; [|len|exact (follow_less _ _ _ F)].
  apply follow_next in F. unfold st_next in F. apply andb_true_iff in F. destruct F as [_ F]. cbn [closed orb] in F. apply negb_true_iff in F.
  rewrite (eat_none _ _ F). reflexivity.
Qed.

Lemma r_wt_else : forall last c s r ts us vs b d f g, R_expr c ts -> R_stmt false s us -> closed s = true -> R_stmt last r vs ->
  R_stmt last (SIf c s (Some r)) ((b, K "if") :: (d, P "(") :: ts ++ (f, P ")") :: us ++ (g, K "else") :: vs).
Proof.
  intros last c s x ts us vs b d f g [H A] [H2 B] Cl [H3 C]. split; [reflexivity|]. intros n r L F. destruct n as [|n]; [len|]. norm. rewrite p_stmt_eq. heads.
  rewrite eat_same, A; [|len|fl]. rewrite eat_same, B; [|len|rewrite Cl; reflexivity]. rewrite eat_same, C; [reflexivity|len|exact F].
Qed.

Lemma r_wt_while : forall last c s ts us b d f, R_expr c ts -> R_stmt last s us ->
  R_stmt last (SWhile c s) ((b, K "while") :: (d, P "(") :: ts ++ (f, P ")") :: us).
Proof.
  intros last c s ts us b d f [H A] [H2 B]. split; [reflexivity|]. intros n r L F. destruct n as [|n]; [len|]. norm. rewrite p_stmt_eq. heads.
  rewrite eat_same, A; [|len|fl]. rewrite eat_same, B; [reflexivity|len|exact F].
Qed.

Lemma r_wt_do : forall last s c ts us vs b d f g, R_stmt false s ts -> R_expr c us -> w_end last vs ->
  R_stmt last (SDo s c) ((b, K "do") :: ts ++ (d, K "while") :: (f, P "(") :: us ++ (g, P ")") :: vs).
Proof.
  intros last s c ts us vs b d f g [H A] [H2 B] W. split; [reflexivity|]. intros n r L F. destruct n as [|n]; [len|]. norm. rewrite p_stmt_eq. heads.
  rewrite A; [|len|cbn [follow]; destruct (closed s); reflexivity]. rewrite eat_same, eat_same, B; [|len|fl]. rewrite eat_same, (end_semicolon _ _ _ _ W F). reflexivity.
Qed.

Lemma r_wt_for : forall last i c u s ts us vs ws b d f g h, R_init i ts -> R_opt c us -> R_opt u vs -> R_stmt last s ws ->
  R_stmt last (SFor i c u s)
    ((b, K "for") :: (d, P "(") :: ts ++ (f, P ";") :: us ++ (g, P ";") :: vs ++ (h, P ")") :: ws).
Proof.
  intros last i c u s ts us vs ws b d f g h A B C [H D]. split; [reflexivity|]. intros n r L F. destruct n as [|n]; [len|]. norm. rewrite p_stmt_eq. heads.
  rewrite eat_same. destruct A as [A1 A2]. 
  match goal with |- context [for_in ?x] => rewrite (proj1 (A2 f _) : for_in x = None) end.
  match goal with |- context [p_for n ?x] => rewrite (proj2 (A2 f _) n ltac:(len) : p_for n x = None) end.
  rewrite A1, eat_same by len.
  rewrite B; [|left; reflexivity|len]. rewrite eat_same, C; [|right; reflexivity|len]. rewrite eat_same, D; [reflexivity|len|exact F].
Qed.

Lemma in_of : forall w, is_text ["in"; "of"]%string w = true -> w = S_ "in" \/ w = S_ "of".
Proof. intros w H. apply is_text_in in H. cbn [map In] in H. destruct H as [<-|[<-|[]]]; auto. Qed.

Lemma r_wt_for_in : forall last x w e s ts us b d f g h, binding x = true -> is_text ["in"; "of"]%string w = true ->
  R_expr e ts -> R_stmt last s us ->
  R_stmt last (SForIn [] (PName x) w e s)
    ((b, K "for") :: (d, P "(") :: (f, (Name, x)) :: (g, (Name, w)) :: ts ++ (h, P ")") :: us).
Proof.
  intros last x w e s ts us b d f g h I J [H A] [H2 B]. split; [reflexivity|]. intros n r L F. destruct n as [|n]; [len|]. norm. rewrite p_stmt_eq. heads.
  rewrite eat_same. unfold for_in, named at 1. cbn [fst snd kind_eqb]. rewrite I, J. cbn [andb]. rewrite A; [|len|fl]. rewrite eat_same, B; [reflexivity|len|exact F].
Qed.

Lemma binding_not : forall x k, binding x = true -> ident k = false -> str_eqb x k = false.
Proof. intros x k B I. destruct (str_eqb x k) eqn:E; [|reflexivity]. apply str_eqb_eq in E. subst x. unfold binding in B. rewrite I in B. discriminate B. Qed.

Lemma binding_in : forall x, binding x = true -> named ["in"; "of"]%string (Name, x) = false.
Proof. intros x B. unfold named, is_text. cbn [fst snd kind_eqb map existsb]. rewrite (binding_not x (S_ "in") B eq_refl), (binding_not x (S_ "of") B eq_refl). reflexivity. Qed.

Lemma r_wt_for_var : forall last k p w e s vs ts us b d i g h, is_text kinds k = true -> R_pat p vs ->
  is_text ["in"; "of"]%string w = true -> R_expr e ts -> R_stmt last s us ->
  R_stmt last (SForIn k p w e s)
    ((b, K "for") :: (d, P "(") :: (i, (Name, k)) :: vs ++ (g, (Name, w)) :: ts ++ (h, P ")") :: us).
Proof.
  intros last k p w e s vs ts us b d i g h J [H0 C] Jw [H A] [H2 B]. split; [reflexivity|]. intros n r L F. destruct n as [|n]; [len|]. norm. rewrite p_stmt_eq. heads.
  rewrite eat_same. destruct n as [|n]; [len|].
  assert (Ek : forall x, for_in ((i, (Name, k)) :: x) = None /\ named kinds (Name, k) = true) by (kind_of J; destruct J as [<-|[<-|[<-|[]]]]; intros [|[? ?] ?]; split; reflexivity).
  rewrite (proj1 (Ek _)), p_for_eq, (proj2 (Ek [])), C by len. unfold named. cbn [fst snd kind_eqb andb]. rewrite Jw.
  rewrite A; [|len|fl]. rewrite eat_same, B; [reflexivity|len|exact F].
Qed.

Lemma r_wt_return_none : forall last us b, w_end last us -> R_stmt last (SReturn None) ((b, K "return") :: us).
Proof.
  intros last us b W. split; [reflexivity|]. intros n r L F. destruct n as [|n]; [len|]. norm. rewrite p_stmt_eq. heads.
  rewrite (end_value _ _ _ _ W F), (end_semicolon _ _ _ _ W F). reflexivity.
Qed.

Lemma r_wt_return : forall last e ts us b, R_expr e ts -> same_line ts = true -> w_end last us ->
  R_stmt last (SReturn (Some e)) ((b, K "return") :: ts ++ us).
Proof.
  intros last e ts us b [H A] Sl W. split; [reflexivity|]. intros n r L F. destruct n as [|n]; [len|]. norm. rewrite p_stmt_eq. heads.
  rewrite (some_value ts _ H Sl), A; [|len|exact (end_expr _ _ _ _ W F)]. rewrite (end_semicolon _ _ _ _ W F). reflexivity.
Qed.

Lemma r_wt_throw : forall last e ts us b, R_expr e ts -> same_line ts = true -> w_end last us ->
  R_stmt last (SThrow e) ((b, K "throw") :: ts ++ us).
Proof.
  intros last e ts us b [H A] Sl W. split; [reflexivity|]. intros n r L F. destruct n as [|n]; [len|]. norm. rewrite p_stmt_eq. heads.
  rewrite (some_value ts _ H Sl), A; [|len|exact (end_expr _ _ _ _ W F)]. rewrite (end_semicolon _ _ _ _ W F). reflexivity.
Qed.

Lemma r_wt_jump : forall last k us b, is_text ["break"; "continue"; "debugger"]%string k = true -> w_end last us ->
  R_stmt last (SJump k None) ((b, (Name, k)) :: us).
Proof.
  intros last k us b I W. kind_of I. split; [destruct I as [<-|[<-|[<-|[]]]]; reflexivity|].
  intros n r L F. destruct n as [|n]; [len|]. norm. rewrite p_stmt_eq. destruct I as [<-|[<-|[<-|[]]]]; heads.
  all: rewrite (end_value _ _ _ _ W F), (end_semicolon _ _ _ _ W F); reflexivity.
Qed.

Lemma r_wt_jump_label : forall last k x us b, is_text ["break"; "continue"]%string k = true -> binding x = true -> w_end last us ->
  R_stmt last (SJump k (Some x)) ((b, (Name, k)) :: (false, (Name, x)) :: us).
Proof.
  intros last k x us b I J W. kind_of I. split; [destruct I as [<-|[<-|[]]]; reflexivity|].
  intros n r L F. destruct n as [|n]; [len|]. norm. rewrite p_stmt_eq. destruct I as [<-|[<-|[]]]; heads.
  all: change (no_value ((false, (Name, x)) :: us ++ r)) with false; cbv iota; unfold p_name; cbn [fst snd kind_eqb andb]; rewrite J, (end_semicolon _ _ _ _ W F); reflexivity.
Qed.

Lemma next_not : forall c r, st_next c r = true -> starts_with (K "catch") r = false /\ starts_with (K "finally") r = false.
Proof. intros c r F. unfold st_next in F. apply andb_true_iff in F. destruct F as [F _]. apply negb_true_iff in F. apply orb_false_elim in F. exact F. Qed.

Lemma r_wt_try : forall last body h f ts us vs b, R_body body ts -> R_handler h us -> R_final f vs -> us ++ vs <> [] ->
  R_stmt last (STry body h f) ((b, K "try") :: ts ++ us ++ vs).
Proof.
  intros last body h f ts us vs b (S & L2 & A) (N & B) (N2 & N3 & C) E. split; [reflexivity|]. intros n r L F. destruct n as [|n]; [len|]. norm. rewrite p_stmt_eq. heads.
  destruct (next_not _ _ (follow_next _ _ _ F)) as [F1 F2]. rewrite A by len. rewrite B; [|len|].
  2:{ intros _. destruct f; [|rewrite (N2 eq_refl); exact F1]. destruct (N3 ltac:(discriminate)) as [X Y]. rewrite starts_app by exact Y. exact X. }
  rewrite C; [|len|intros _; exact F2]. destruct h; [reflexivity|]. destruct f; [reflexivity|]. rewrite (N eq_refl), (N2 eq_refl) in E. destruct (E eq_refl).
Qed.

Lemma r_wt_switch : forall last e l ts us b d f g h, R_expr e ts -> R_cases l us ->
  R_stmt last (SSwitch e l) ((b, K "switch") :: (d, P "(") :: ts ++ (f, P ")") :: (g, P "{") :: us ++ [(h, P "}")]).
Proof.
  intros last e l ts us b d f g h [H A] (N & B). split; [reflexivity|]. intros n r L F. destruct n as [|n]; [len|]. norm. rewrite p_stmt_eq. heads.
  rewrite eat_same, A; [|len|fl]. rewrite eat_same, eat_same, B; [|len]. rewrite eat_same. reflexivity.
Qed.

Lemma r_wt_fun : forall last a g x ps body ts, w_function (Func a g (Some x) ps body) ts -> R_function (Func a g (Some x) ps body) ts ->
  R_stmt last (SFun (Func a g (Some x) ps body)) ts.
Proof.
  intros last a g x ps l ts W A. destruct (function_first _ ts W) as [(b & us & ->)|(b & us & ->)]; (split; [reflexivity|]); intros n r L F; (destruct n as [|n]; [len|]); rewrite p_stmt_eq;
    pose proof (A n r ltac:(len)) as E; cbn [app] in *; heads; rewrite E; reflexivity.
Qed.

Lemma r_wt_class : forall last x o l ts, w_class (Class (Some x) o l) ts -> R_class (Class (Some x) o l) ts -> R_stmt last (SClass (Class (Some x) o l)) ts.
Proof.
  intros last x o l ts W A. destruct (class_first _ ts W) as (b & us & ->). split; [reflexivity|]. intros n r L F. destruct n as [|n]; [len|]. rewrite p_stmt_eq.
  pose proof (A n r ltac:(len)) as E. cbn [app] in *. heads. rewrite E. reflexivity.
Qed.

Lemma r_wt_label : forall last x s ts b c, binding x = true -> R_stmt last s ts -> R_stmt last (SLabel x s) ((b, (Name, x)) :: (c, P ":") :: ts).
Proof.
  intros last x s ts b c I [H A]. assert (Ix : ident x = true) by (unfold binding in I; apply andb_true_iff in I; apply I). split.
  - cbn [hd_ok snd]. unfold st_start. rewrite !(ident_reserved x _ Ix) by reflexivity. reflexivity.
  - intros n r L F. destruct n as [|n]; [len|]. norm. rewrite p_stmt_eq. unfold label. cbn [fst snd kind_eqb andb]. rewrite I, eat_same, A; [reflexivity|len|exact F].
Qed.

(** ** The parts of statements *)

Lemma r_wv_one : forall d ts, R_decl d ts -> R_decls [d] ts.
Proof.
  intros d ts (X & H & A). split; [exact X|]. intros n r L F. destruct n as [|n]; [len|]. rewrite p_decls_eq, A; [|len|exact (fl_expr_assign _ F)].
  unfold fl_expr in F. apply andb_true_iff in F. destruct F as [_ F]. apply negb_true_iff in F. rewrite (eat_none _ _ F). reflexivity.
Qed.

Lemma r_wv_cons : forall d l ts us b, R_decl d ts -> R_decls l us -> R_decls (d :: l) (ts ++ (b, P ",") :: us).
Proof.
  intros d l ts us b (X & H & A) [_ B]. split; [intros n r L F; norm; apply X; [len|reflexivity]|].
  intros n r L F. destruct n as [|n]; [len|]. norm. rewrite p_decls_eq, A; [|len|fl]. rewrite eat_same, B; [reflexivity|len|exact F].
Qed.

Lemma r_wv_name : forall p ts, R_pat p ts -> R_decl (p, None) ts.
Proof.
  intros p ts [H A]. split; [intros n r L F; exists p, r; split; [apply A; len|exact F]|]. split; [exact (hd_length _ _ H)|]. intros n r L F. destruct n as [|n]; [len|].
  rewrite p_decl_eq, A by len. rewrite (assign_no_equal r F). reflexivity.
Qed.

Lemma r_wv_value : forall p e ts us b, R_pat p ts -> R_assign e us -> R_decl (p, Some e) (ts ++ (b, P "=") :: us).
Proof.
  intros p e ts us b [H A] [H2 B]. split; [intros n r L F; norm; exists p, (@cons tok (b, P "=") (us ++ r)); split; [apply A; len|reflexivity]|]. split; [len|].
  intros n r L F. destruct n as [|n]; [len|]. norm. rewrite p_decl_eq, A by len. rewrite eat_same, B; [reflexivity|len|exact F].
Qed.

Lemma for_in_none : forall ts b r, no_in ts = true -> for_in (ts ++ (b, P ";") :: r) = None.
Proof.
  intros ts b r H. unfold no_in in H. destruct ts as [|[f1 t1] ts].
  { cbn [app for_in]. destruct r as [|[f2 t2] r]; reflexivity. }
  destruct ts as [|[f2 t2] ts]; cbn [app for_in].
  { change (named ["in"; "of"]%string (P ";")) with false. rewrite andb_false_r. reflexivity. }
  cbn [forallb snd] in H. apply andb_true_iff in H. destruct H as [_ H]. apply andb_true_iff in H. destruct H as [H2 H]. apply negb_true_iff in H2. rewrite H2, andb_false_r. reflexivity.
Qed.

Lemma r_wz_none : R_init INone [].
Proof. split; [intros n b r L; destruct n as [|n]; [len|]; reflexivity|]. intros b r. split; [exact (for_in_none [] b r eq_refl)|]. intros n L. destruct n as [|n]; [len|]. reflexivity. Qed.

Lemma r_wz_expr : forall e ts, R_expr e ts -> no_in ts = true -> named kinds (snd (hd (false, P "") ts)) = false -> R_init (IExpr e) ts.
Proof.
  intros e ts [H A] Ni Nk. split.
  2:{ intros b r. split; [exact (for_in_none ts b r Ni)|]. intros n L. destruct n as [|n]; [len|]. rewrite p_for_eq. destruct ts as [|[b1 t] ts]; [destruct H|]. cbn [app hd snd] in *. rewrite Nk. reflexivity. }
  intros n b r L. destruct n as [|n]; [len|]. rewrite p_init_eq. rewrite A; [|len|fl].
  destruct ts as [|[b1 t] ts]; [destruct H|]. pose proof (hd_not _ (P ";") _ H eq_refl) as H1. unfold starts_with in H1. cbn [snd hd] in *. cbn [app]. rewrite H1, Nk. reflexivity.
Qed.

Lemma r_wz_var : forall k ds ts b, is_text kinds k = true -> R_decls ds ts -> no_in ts = true -> R_init (IVar k ds) ((b, (Name, k)) :: ts).
Proof.
  intros k ds ts b I [X A] Ni. split; [intros n c r L|intros c r; split].
  - destruct n as [|n]; [len|]. rewrite p_init_eq. norm. kind_of I. destruct I as [<-|[<-|[<-|[]]]]; heads; (rewrite A; [reflexivity|len|fl]).
  - apply for_in_none. unfold no_in in *. cbn [forallb snd]. rewrite Ni. kind_of I. destruct I as [<-|[<-|[<-|[]]]]; reflexivity.
  - intros n L. destruct n as [|n]; [len|]. norm. rewrite p_for_eq. 
    match goal with |- context [p_pat n ?x] => destruct (X n (@cons tok (c, P ";") r) ltac:(len) eq_refl : exists p s, p_pat n x = Some (p, s) /\ not_in s = true) as (p & s & E & G) end.
    replace (named kinds (Name, k)) with true by (symmetry; exact I). rewrite E. destruct s as [|[b1 w] s]; [reflexivity|]. cbn [not_in] in G. apply negb_true_iff in G. rewrite G. reflexivity.
Qed.

Lemma r_wx_none : R_opt None [].
Proof. intros n close b r C L. destruct n as [|n]; [len|]. rewrite p_opt_eq. cbn [app starts_with snd]. rewrite same_refl. reflexivity. Qed.

Lemma r_wx_some : forall e ts, R_expr e ts -> R_opt (Some e) ts.
Proof.
  intros e ts [H A] n close b r C L. destruct n as [|n]; [len|]. rewrite p_opt_eq, A; [|len|destruct C as [->| ->]; fl].
  rewrite (hd_not starter); [reflexivity|apply hd_app, H|destruct C as [->| ->]; reflexivity].
Qed.

Lemma r_wh_none : R_handler None [].
Proof. split; [reflexivity|]. intros n r L E. destruct n as [|n]; [len|]. rewrite p_handler_eq. cbn [app]. rewrite (eat_none _ _ (E eq_refl)). reflexivity. Qed.

Lemma brace_paren : forall l ts r, R_body l ts -> eat (P "(") (ts ++ r) = None.
Proof. intros l ts r (S & _). destruct ts as [|[b t] ts]; [discriminate S|]. cbn [starts_with snd] in S. apply same_eq in S. subst t. reflexivity. Qed.

Lemma r_wh_catch : forall body ts b, R_body body ts -> R_handler (Some (None, body)) ((b, K "catch") :: ts).
Proof.
  intros l ts b A. split; [discriminate|]. intros n r L _. destruct n as [|n]; [len|]. rewrite p_handler_eq. cbn [app]. rewrite eat_same, (brace_paren l ts r A).
  destruct A as (S & L2 & A). rewrite A; [reflexivity|len].
Qed.

Lemma r_wh_name : forall p body vs ts b c d, R_pat p vs -> R_body body ts ->
  R_handler (Some (Some p, body)) ((b, K "catch") :: (c, P "(") :: vs ++ (d, P ")") :: ts).
Proof.
  intros p l vs ts b c d [H B] (S & L2 & A). split; [discriminate|]. intros n r L _. destruct n as [|n]; [len|]. norm. rewrite p_handler_eq.
  rewrite !eat_same, B by len. rewrite eat_same, A; [reflexivity|len].
Qed.

Lemma r_wf_none : R_final None [].
Proof. split; [reflexivity|]. split; [congruence|]. intros n r L E. destruct n as [|n]; [len|]. rewrite p_final_eq. cbn [app]. rewrite (eat_none _ _ (E eq_refl)). reflexivity. Qed.

Lemma r_wf_some : forall body ts b, R_body body ts -> R_final (Some body) ((b, K "finally") :: ts).
Proof.
  intros l ts b (S & L2 & A). split; [discriminate|]. split; [intros _; split; [reflexivity|discriminate]|]. intros n r L _. destruct n as [|n]; [len|]. rewrite p_final_eq. cbn [app].
  rewrite eat_same, A; [reflexivity|len].
Qed.

Lemma cases_end : forall n b r, p_cases (S n) ((b, P "}") :: r) = Some ([], (b, P "}") :: r).
Proof. intros n b r. rewrite p_cases_eq. destruct n; reflexivity. Qed.

Lemma r_wy_none : R_cases [] [].
Proof. split; [congruence|]. intros n b r L. destruct n as [|n]; [len|]. apply cases_end. Qed.

Lemma r_wy_last : forall c l ts us, R_case c ts -> R_stmts true l us -> R_cases [(c, l)] (ts ++ us).
Proof.
  intros c l ts us (L2 & H & A) B. split; [intros _ r; norm; apply H|]. intros n b r L. destruct n as [|[|n]]; [len|len|]. norm. rewrite p_cases_eq, A by len.
  rewrite B; [|len|reflexivity|reflexivity]. rewrite cases_end. reflexivity.
Qed.

Lemma r_wy_cons : forall c l r ts us vs, R_case c ts -> R_stmts false l us -> R_cases r vs -> r <> [] ->
  R_cases ((c, l) :: r) (ts ++ us ++ vs).
Proof.
  intros c l x ts us vs (L2 & H & A) B (H3 & C) N. split; [intros _ r; norm; apply H|]. intros n b r L. destruct n as [|n]; [len|]. norm. rewrite p_cases_eq, A by len.
  rewrite B; [|len|apply (H3 N)|discriminate]. rewrite C by len. reflexivity.
Qed.

Lemma r_wy_default : forall b c, R_case None [(b, K "default"); (c, P ":")].
Proof. intros b c. split; [len|]. split; [reflexivity|]. intros n r L. destruct n as [|n]; [len|]. reflexivity. Qed.

Lemma r_wy_case : forall e ts b c, R_expr e ts -> R_case (Some e) ((b, K "case") :: ts ++ [(c, P ":")]).
Proof.
  intros e ts b c [H A]. split; [len|]. split; [reflexivity|]. intros n r L. destruct n as [|n]; [len|]. norm. rewrite p_case_eq.
  rewrite eat_none by reflexivity. rewrite eat_same, A; [|len|fl]. rewrite eat_same. reflexivity.
Qed.

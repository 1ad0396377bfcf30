(** Expressions: what the grammar of JsTreeSpec writes, its parser reads. *)
From Coq Require Import String Arith List NArith Bool Lia.
From Verif Require Import Base EsSpec JsPlainSpec JsTreeSpec JsTreeProofs1 JsTreeProofs6.
Import ListNotations.
Open Scope N_scope.

Ltac len := repeat (progress (rewrite ?app_length in *; cbn [length] in *)); lia.
Ltac fl := match goal with |- _ ((?b, _) :: _) = true => first [destruct b|idtac]; reflexivity end.
Ltac heads :=
  repeat match goal with
  | |- context [same ?a ?b] => let v := eval vm_compute in (same a b) in (match v with true => idtac | false => idtac end); change (same a b) with v
  | |- context [opening ?a] => let v := eval vm_compute in (opening a) in (match v with true => idtac | false => idtac end); change (opening a) with v
  | |- context [label ?a] => let v := eval vm_compute in (label a) in (match v with None => idtac end); change (label a) with v
  | |- context [async_fun ?a] => let v := eval vm_compute in (async_fun a) in (match v with true => idtac | false => idtac end); change (async_fun a) with v
  | |- context [named ?a ?b] => let v := eval vm_compute in (named a b) in (match v with true => idtac | false => idtac end); change (named a b) with v
  end; cbn [orb]; cbv iota.

(** ** What is claimed of each kind of phrase *)

Definition R_expr (e : expr) (ts : list tok) : Prop := hd_ok starter ts
  /\ forall n r, (10 * length ts + 10 <= n)%nat -> fl_expr r = true -> p_expr n (ts ++ r) = Some (e, r).
Definition R_assign (e : expr) (ts : list tok) : Prop := hd_ok starter ts
  /\ forall n r, (10 * length ts + 9 <= n)%nat -> fl_assign r = true -> p_assign n (ts ++ r) = Some (e, r).
Definition R_cond (e : expr) (ts : list tok) : Prop := hd_ok starter ts
  /\ forall n r, (10 * length ts + 8 <= n)%nat -> fl_assign r = true -> p_cond n (ts ++ r) = Some (e, r).
Definition R_bin (q : nat) (e : expr) (ts : list tok) : Prop := hd_ok starter ts
  /\ forall n p r, (p <= q)%nat -> (10 * length ts + 6 <= n)%nat -> fl_bin q r = true ->
     exists n', (n <= n' + 10 * length ts + 6)%nat /\ p_bin n p (ts ++ r) = bin_loop n' p e r.
Definition R_unary (e : expr) (ts : list tok) : Prop := hd_ok starter ts
  /\ forall n r, (10 * length ts + 5 <= n)%nat -> fl_unary r = true -> p_unary n (ts ++ r) = Some (e, r).
Definition R_post (e : expr) (ts : list tok) : Prop := hd_ok simple ts
  /\ forall n r, (10 * length ts + 4 <= n)%nat -> fl_post r = true -> p_post n (ts ++ r) = Some (e, r).
Definition R_left (e : expr) (ts : list tok) : Prop := hd_ok simple ts
  /\ forall n r, (10 * length ts + 2 <= n)%nat ->
     exists n', (n <= n' + 10 * length ts + 2)%nat /\ p_left n (ts ++ r) = left_loop n' e r.
Definition R_primary (e : expr) (ts : list tok) : Prop := hd_ok simple ts
  /\ forall n r, (10 * length ts + 1 <= n)%nat -> p_primary n (ts ++ r) = Some (e, r).
Definition closing (e : element) : Prop := e = P ")" \/ e = P "]".
Definition R_arrow (l : list pat) (ts : list tok) : Prop := forall n r, (10 * length ts + 1 <= n)%nat -> p_arrow n (ts ++ r) = Some (l, r).
Definition unclosed (e : element) : bool := negb (same e (P ")") || same e (P "]")).
Definition R_list1 (l : list expr) (ts : list tok) : Prop := hd_ok unclosed ts
  /\ forall n close b r, closing close -> (10 * length ts + 11 <= n)%nat -> p_list1 n close (ts ++ (b, close) :: r) = Some (l, r).
Definition R_list (l : list expr) (ts : list tok) : Prop :=
  forall n close b r, closing close -> (10 * length ts + 12 <= n)%nat -> p_list n close (ts ++ (b, close) :: r) = Some (l, r).
Definition R_item (e : expr) (ts : list tok) : Prop := hd_ok unclosed ts
  /\ forall n r, (10 * length ts + 10 <= n)%nat -> fl_assign r = true -> p_item n (ts ++ r) = Some (e, r).

(** Inside braces: the head is no closing brace, and a comma or the closing brace follows. *)
Definition inner (e : element) : bool := negb (same e (P "}")).
Definition sep (r : list tok) : bool := starts_with (P ",") r || starts_with (P "}") r.
Definition ends (r : list tok) : bool := match r with [] => true | t :: _ => same (snd t) (P "}") end.
Definition R_props1 (l : list prop) (ts : list tok) : Prop := hd_ok inner ts
  /\ forall n b r, (10 * length ts + 2 <= n)%nat -> p_props1 n (ts ++ (b, P "}") :: r) = Some (l, r).
Definition R_props (l : list prop) (ts : list tok) : Prop :=
  forall n b r, (10 * length ts + 3 <= n)%nat -> p_props n (ts ++ (b, P "}") :: r) = Some (l, r).
Definition R_prop (p : prop) (ts : list tok) : Prop := hd_ok inner ts
  /\ forall n r, (10 * length ts + 1 <= n)%nat -> sep r = true -> p_prop n (ts ++ r) = Some (p, r).
Definition R_key (k : pkey) (ts : list tok) : Prop := (1 <= length ts)%nat /\ forall n r, (10 * length ts <= n + 5)%nat -> p_key n (ts ++ r) = Some (k, r).
Definition R_function (f : func) (ts : list tok) : Prop := forall n r, (10 * length ts <= n)%nat -> p_function n (ts ++ r) = Some (f, r).
Definition R_class (c : cls) (ts : list tok) : Prop := forall n r, (10 * length ts <= n)%nat -> p_class n (ts ++ r) = Some (c, r).
Definition R_ext (o : option expr) (ts : list tok) : Prop :=
  forall n b r, (10 * length ts + 1 <= n)%nat -> p_ext n (ts ++ (b, P "{") :: r) = Some (o, (b, P "{") :: r).
Definition R_members (l : list member) (ts : list tok) : Prop :=
  forall n b r, (10 * length ts + 1 <= n)%nat -> p_members n (ts ++ (b, P "}") :: r) = Some (l, r).
Definition R_member (last : bool) (m : member) (ts : list tok) : Prop := hd_ok inner ts
  /\ forall n r, (10 * length ts <= n)%nat -> (last = true -> ends r = true) -> p_member n (ts ++ r) = Some (m, r).
Definition R_params (l : list pat) (ts : list tok) : Prop := starts_with (P "(") ts = true /\ (2 <= length ts)%nat
  /\ forall n r, (10 * length ts <= n)%nat -> p_params n (ts ++ r) = Some (l, r).
Definition R_elems (l : list pat) (ts : list tok) : Prop :=
  forall n close b r, closing close -> (10 * length ts + 3 <= n)%nat -> p_elems n close (ts ++ (b, close) :: r) = Some (l, r).
Definition R_elems1 (l : list pat) (ts : list tok) : Prop := hd_ok unclosed ts
  /\ forall n close b r, closing close -> (10 * length ts + 2 <= n)%nat -> p_elems1 n close (ts ++ (b, close) :: r) = Some (l, r).
Definition R_elem (p : pat) (ts : list tok) : Prop := hd_ok starter ts
  /\ forall n r, (10 * length ts + 1 <= n)%nat -> fl_assign r = true -> p_elem n (ts ++ r) = Some (p, r).
Definition R_pat (p : pat) (ts : list tok) : Prop := hd_ok starter ts
  /\ forall n r, (10 * length ts <= n)%nat -> p_pat n (ts ++ r) = Some (p, r).
Definition R_fields (l : list pat) (ts : list tok) : Prop :=
  forall n b r, (10 * length ts + 3 <= n)%nat -> p_fields n (ts ++ (b, P "}") :: r) = Some (l, r).
Definition R_fields1 (l : list pat) (ts : list tok) : Prop := hd_ok inner ts
  /\ forall n b r, (10 * length ts + 2 <= n)%nat -> p_fields1 n (ts ++ (b, P "}") :: r) = Some (l, r).
Definition R_field (p : pat) (ts : list tok) : Prop := hd_ok inner ts
  /\ forall n r, (10 * length ts + 1 <= n)%nat -> sep r = true -> p_field n (ts ++ r) = Some (p, r).
Definition R_body (l : list stmt) (ts : list tok) : Prop := starts_with (P "{") ts = true /\ (2 <= length ts)%nat
  /\ forall n r, (10 * length ts <= n)%nat -> p_body n (ts ++ r) = Some (l, r).

(** ** Expressions *)

Lemma r_we_one : forall e ts, R_assign e ts -> R_expr e ts.
Proof.
  intros e ts [H A]. split; [exact H|]. intros n r L F. destruct n as [|n]; [len|]. rewrite p_expr_eq, A; [|len|apply fl_expr_assign, F].
  unfold fl_expr in F. apply andb_true_iff in F. destruct F as [_ F]. apply negb_true_iff in F. rewrite (eat_none _ _ F). reflexivity.
Qed.

Lemma r_we_comma : forall e r ts us b, R_assign e ts -> R_expr r us -> R_expr (EComma e r) (ts ++ (b, P ",") :: us).
Proof.
  intros e x ts us b [H A] [H2 B]. split; [apply hd_app, H|]. intros n r L F. destruct n as [|n]; [len|]. norm.
  rewrite p_expr_eq, A; [|len|fl]. rewrite eat_same, B; [reflexivity|len|exact F].
Qed.

Lemma r_wa_cond : forall e ts, w_cond e ts -> R_cond e ts -> R_assign e ts.
Proof.
  intros e ts W [H A]. split; [exact H|]. intros n r L F. destruct n as [|n]; [len|].
  destruct (calm_cond e ts W) as [_ C]. destruct (C r) as (C1 & _ & C3). rewrite p_assign_eq, (C1 (fl_assign_arrow r F)), C3, A; [|len|exact F].
  unfold fl_assign in F. apply andb_true_iff in F. destruct F as [F _]. apply andb_true_iff in F. destruct F as [_ F].
  destruct r as [|[b [k op]] r]; [reflexivity|]. destruct k; try reflexivity. apply negb_true_iff in F. rewrite F. reflexivity.
Qed.

Lemma r_wb_unary : forall p e ts, R_unary e ts -> R_bin p e ts.
Proof.
  intros q e ts [H A]. split; [exact H|]. intros n p r L LN F. destruct n as [|n]; [len|]. exists n. split; [len|]. rewrite p_bin_eq, A; [reflexivity|len|exact (fl_bin_unary _ _ F)].
Qed.

Lemma r_wb_op : forall p q o l r ts us b, rank o = Some q -> (p <= q)%nat -> R_bin q l ts -> R_bin (S q) r us ->
  R_bin p (EBin (snd o) l r) (ts ++ (b, o) :: us).
Proof.
  intros p q o l x ts us b K L [H A] [H2 B]. split; [apply hd_app, H|]. intros n p' r Lp LN F. rewrite <- app_assoc. cbn [app].
  destruct (A n p' ((b, o) :: us ++ r)) as (n1 & L1 & E1); [lia|len|apply fl_rank, K|].
  destruct n1 as [|n1]; [len|]. rewrite (bin_step n1 p' q b o l (us ++ r) K) in E1 by lia.
  destruct (B n1 (S q) r) as (n2 & L2 & E2); [lia|len|apply (fl_bin_more p); [lia|exact F]|]. rewrite E2 in E1.
  destruct n2 as [|n2]; [len|]. rewrite (bin_stop n2 (S q) p x r) in E1 by (lia || exact F). exists n1. split; [len|exact E1].
Qed.

Lemma bin_cond : forall e ts, R_bin 1 e ts -> forall n r, (10 * length ts + 8 <= n)%nat -> fl_cond r = true -> p_cond n (ts ++ r) = Some (e, r).
Proof.
  intros e ts [H A] n r L F. destruct n as [|n]; [len|]. rewrite p_cond_eq. pose proof (fl_cond_bin r F) as F0.
  destruct (A n 1%nat r) as (n1 & L1 & E1); [lia|len|apply (fl_bin_more 0); [lia|exact F0]|]. rewrite E1. destruct n1 as [|n1]; [len|].
  rewrite (bin_stop n1 1 0 e r) by (lia || exact F0). unfold fl_cond in F. apply andb_true_iff in F. destruct F as [_ F]. apply negb_true_iff in F. rewrite (eat_none _ _ F). reflexivity.
Qed.

Lemma r_wc_bin : forall e ts, R_bin 1 e ts -> R_cond e ts.
Proof. intros e ts H. split; [exact (proj1 H)|]. intros n r L F. apply bin_cond; [exact H|exact L|apply fl_assign_cond, F]. Qed.

Lemma r_wc_if : forall c a b ts us vs f g, R_bin 1 c ts -> R_assign a us -> R_assign b vs ->
  R_cond (ECond c a b) (ts ++ (f, P "?") :: us ++ (g, P ":") :: vs).
Proof.
  intros c a b ts us vs f g [H A] [H2 B] [H3 C]. split; [apply hd_app, H|]. intros n r L F. destruct n as [|n]; [len|]. norm. rewrite p_cond_eq.
  match goal with |- context [p_bin n 1 (ts ++ ?x)] => set (rest := x) end.
  assert (F0 : fl_bin 0 rest = true) by (unfold rest; fl).
  destruct (A n 1%nat rest) as (n1 & L1 & E1); [lia|len|apply (fl_bin_more 0); [lia|exact F0]|]. rewrite E1. destruct n1 as [|n1]; [len|].
  rewrite (bin_stop n1 1 0 c rest) by (lia || exact F0). unfold rest. rewrite eat_same. rewrite B; [|len|fl]. rewrite eat_same. rewrite C; [reflexivity|len|exact F].
Qed.

Lemma unary_head : forall n ts r, hd_ok simple ts -> p_unary (S n) (ts ++ r) =
  let? (e, s) := p_post n (ts ++ r) in
  match eat (P "**") s with
  | Some s' => let? (x, s2) := p_unary n s' in Some (EBin (S_ "**") e x, s2)
  | None => Some (e, s)
  end.
Proof.
  intros n ts r H. rewrite p_unary_eq. destruct ts as [|[b o] ts]; [destruct H|]. cbn [hd_ok snd] in H. apply andb_true_iff in H. destruct H as [_ H]. apply negb_true_iff in H.
  cbn [app]. rewrite H. reflexivity.
Qed.

Lemma r_wu_post : forall e ts, R_post e ts -> R_unary e ts.
Proof.
  intros e ts [H A]. split; [exact (hd_imp _ _ _ simple_starter H)|]. intros n r L F. destruct n as [|n]; [len|]. rewrite (unary_head n ts r H), A; [|len|exact (fl_unary_post _ F)].
  unfold fl_unary in F. apply andb_true_iff in F. destruct F as [_ F]. apply negb_true_iff in F. rewrite (eat_none _ _ F). reflexivity.
Qed.

Lemma r_wu_pow : forall e r ts us b, R_post e ts -> R_unary r us -> R_unary (EBin (S_ "**") e r) (ts ++ (b, P "**") :: us).
Proof.
  intros e x ts us b [H A] [H2 B]. split; [apply hd_app, (hd_imp _ _ _ simple_starter H)|]. intros n r L F. destruct n as [|n]; [len|]. norm. rewrite (unary_head n ts _ H), A; [|len|fl].
  rewrite eat_same, B; [reflexivity|len|exact F].
Qed.

Lemma r_wu_pre : forall o e ts b, prefix o = true -> increments (snd o) && negb (target e) = false -> R_unary e ts ->
  R_unary (EPre (snd o) e) ((b, o) :: ts).
Proof.
  intros o e ts b K I [H A]. split; [exact (prefix_starter o K)|]. intros n r L F. destruct n as [|n]; [len|]. rewrite p_unary_eq. cbn [app]. rewrite K, A; [|len|exact F].
  rewrite I. reflexivity.
Qed.

Lemma r_wp_left : forall e ts, R_left e ts -> R_post e ts.
Proof.
  intros e ts [H A]. split; [exact H|]. intros n r L F. destruct n as [|n]; [len|]. rewrite p_post_eq.
  destruct (A n r) as (n1 & L1 & E1); [len|]. rewrite E1. destruct n1 as [|n1]; [len|]. rewrite (left_stop n1 e r (fl_post_left r F)).
  unfold fl_post in F. apply andb_true_iff in F. destruct F as [_ F]. destruct r as [|[[] [[] op]] r]; try reflexivity. apply negb_true_iff in F. rewrite F. reflexivity.
Qed.

Lemma r_wp_post : forall e op ts, R_left e ts -> target e = true -> increments op = true -> R_post (EPost e op) (ts ++ [(false, (Punct, op))]).
Proof.
  intros e op ts [H A] T I. split; [apply hd_app, H|]. intros n r L F. destruct n as [|n]; [len|]. norm. rewrite p_post_eq.
  destruct (A n (@cons tok (false, (Punct, op)) r)) as (n1 & L1 & E1); [len|]. rewrite E1. destruct n1 as [|n1]; [len|]. rewrite left_stop.
  - rewrite I, T. reflexivity.
  - apply is_text_in in I. cbn [map In] in I. destruct I as [<-|[<-|[]]]; reflexivity.
Qed.

Lemma left_bin : forall e ts, R_left e ts -> R_bin 1 e ts.
Proof. intros e ts H. apply r_wb_unary, r_wu_post, r_wp_left, H. Qed.

Lemma r_wa_assign : forall e op r ts us b, w_left e ts -> R_left e ts -> assignable op e = true -> is_text assign_ops op = true -> R_assign r us ->
  R_assign (EAssign e op r) (ts ++ (b, (Punct, op)) :: us).
Proof.
  intros e op x ts us b W A T I [H2 B]. split; [apply hd_app, (hd_imp _ _ _ simple_starter (proj1 A))|]. intros n r L F. destruct n as [|n]; [len|]. norm.
  destruct (calm_left e ts W) as [_ C]. destruct (C (@cons tok (b, (Punct, op)) (us ++ r))) as (C1 & _ & C3).
  rewrite p_assign_eq, C1, C3 by exact (proj1 (next_assign op b us I r)). rewrite (bin_cond e ts (left_bin e ts A)); [|len|apply fl_assign_op, I]. rewrite I, T, B; [reflexivity|len|exact F].
Qed.

Lemma r_wl_primary : forall e ts, R_primary e ts -> R_left e ts.
Proof.
  intros e ts [H A]. split; [exact H|]. intros n r L. destruct n as [|n]; [len|]. exists n. split; [len|]. rewrite p_left_eq, A; [reflexivity|len].
Qed.

Lemma r_wr_word : forall x b, ident x = true -> R_primary (EWord x) [(b, (Name, x))].
Proof.
  intros x b I. split; [exact (ident_simple x I)|]. intros n r L. destruct n as [|n]; [len|]. rewrite p_primary_eq. cbn [app].
  unfold async_fun. cbn [snd].
  rewrite (ident_reserved x "function" I eq_refl), (ident_reserved x "async" I eq_refl), (ident_reserved x "class" I eq_refl), (ident_reserved x "new" I eq_refl). cbn [fst snd]. rewrite I. reflexivity.
Qed.

Lemma binding_simple : forall x, binding x = true -> simple (Name, x) = true.
Proof. intros x I. unfold binding in I. apply andb_true_iff in I. exact (ident_simple x (proj1 I)). Qed.

(** Arrow functions. *)
Lemma ahead_ok : forall ps ts us, w_arrow ps ts -> arrow_ahead (ts ++ (false, P "=>") :: us) = true.
Proof.
  intros ps ts us W. destruct W as [x b I|ps ts W].
  - cbn [app]. unfold arrow_ahead. change (same (Name, x) (P "(")) with false. cbn [fst snd kind_eqb andb]. rewrite I. reflexivity.
  - destruct W as [l ts b c W]. norm. unfold arrow_ahead. change (same (P "(") (P "(")) with true. cbv iota. rewrite (bal_elems l ts W). reflexivity.
Qed.

Lemma arrow_nonempty : forall ps ts, w_arrow ps ts -> ts <> [].
Proof. intros ps ts W. destruct W as [x b I|ps ts W]; [discriminate|destruct W; discriminate]. Qed.

Lemma start_ok : forall a ps hs ts us, w_async a hs -> w_arrow ps ts -> negb a || same_line ts = true ->
  arrow_start (hs ++ ts ++ (false, P "=>") :: us) = Some (a, ts ++ (false, P "=>") :: us).
Proof.
  intros a ps hs ts us A W L. pose proof (ahead_ok ps ts us W) as H. unfold arrow_start. destruct A; cbn [app].
  - rewrite H. reflexivity.
  - change (arrow_ahead ((b, K "async") :: ts ++ (false, P "=>") :: us)) with false. heads. rewrite H.
    cbn [negb orb] in L. pose proof (arrow_nonempty ps ts W) as Ne. destruct ts as [|t ts]; [congruence|]. cbn [app same_line] in *. rewrite L. reflexivity.
Qed.

Lemma arrow_starter : forall a ps hs ts, w_async a hs -> w_arrow ps ts -> hd_ok starter (hs ++ ts).
Proof. intros a ps hs ts A W. destruct A; [|reflexivity]. cbn [app]. destruct W as [x b I|ps ts W]; [reflexivity|destruct W; reflexivity]. Qed.

Lemma r_wa_arrow : forall a ps e hs ts us, w_async a hs -> w_arrow ps ts -> R_arrow ps ts -> negb a || same_line ts = true ->
  starts_with (P "{") us = false -> R_assign e us -> R_assign (EArrow a ps e) (hs ++ ts ++ (false, P "=>") :: us).
Proof.
  intros a ps e hs ts us A W P Sl N [H B]. split; [rewrite app_assoc; apply hd_app, (arrow_starter a ps hs ts A W)|]. intros n r L F. destruct n as [|n]; [len|]. norm.
  rewrite p_assign_eq, (start_ok a ps hs ts _ A W Sl), P, eat_same by len.
  rewrite starts_app by (destruct us; [destruct H|discriminate]). rewrite N, B; [reflexivity|len|exact F].
Qed.

Lemma body_starts : forall l ts r, R_body l ts -> starts_with (P "{") (ts ++ r) = true.
Proof. intros l ts r (S & L & _). rewrite starts_app; [exact S|]. destruct ts; [discriminate S|discriminate]. Qed.

Lemma r_wa_arrow_body : forall a ps body hs ts us, w_async a hs -> w_arrow ps ts -> R_arrow ps ts -> negb a || same_line ts = true ->
  R_body body us -> R_assign (EArrowBody a ps body) (hs ++ ts ++ (false, P "=>") :: us).
Proof.
  intros a ps l hs ts us A W P Sl B. split; [rewrite app_assoc; apply hd_app, (arrow_starter a ps hs ts A W)|]. intros n r L F. destruct n as [|n]; [len|]. norm.
  rewrite p_assign_eq, (start_ok a ps hs ts _ A W Sl), P, eat_same by len.
  rewrite (body_starts l us r B). destruct B as (S & L2 & B). rewrite B; [reflexivity|len].
Qed.

Lemma r_war_name : forall x b, binding x = true -> R_arrow [PName x] [(b, (Name, x))].
Proof. intros x b I n r L. destruct n as [|n]; [len|]. rewrite p_arrow_eq. cbn [app p_name fst snd kind_eqb andb]. rewrite I. reflexivity. Qed.

Lemma r_war_params : forall ps ts, R_params ps ts -> R_arrow ps ts.
Proof.
  intros ps ts (S & L2 & A) n r L. destruct n as [|n]; [len|]. rewrite p_arrow_eq. rewrite <- (A n r) by len.
  destruct ts as [|[b t] ts]; [discriminate S|]. cbn [starts_with snd] in S. apply same_eq in S. subst t. reflexivity.
Qed.

Lemma r_wa_yield : forall e ts b, R_assign e ts -> same_line ts = true -> R_assign (EYield false e) ((b, K "yield") :: ts).
Proof.
  intros e ts b [H A] Sl. split; [reflexivity|]. intros n r L F. destruct n as [|n]; [len|]. norm. rewrite p_assign_eq.
  change (arrow_start ((b, K "yield") :: ts ++ r)) with (@None (bool * list tok)). rewrite eat_same.
  replace (same_line (ts ++ r)) with true by (destruct ts; [destruct H|symmetry; exact Sl]).
  rewrite (eat_none (P "*")) by (apply (hd_not starter); [apply hd_app, H|reflexivity]). rewrite A; [reflexivity|len|exact F].
Qed.

Lemma r_wa_yield_all : forall e ts b, R_assign e ts -> R_assign (EYield true e) ((b, K "yield") :: (false, P "*") :: ts).
Proof.
  intros e ts b [H A]. split; [reflexivity|]. intros n r L F. destruct n as [|n]; [len|]. norm. rewrite p_assign_eq.
  change (arrow_start ((b, K "yield") :: (false, P "*") :: ts ++ r)) with (@None (bool * list tok)). rewrite eat_same. cbn [same_line fst negb].
  rewrite eat_same, A; [reflexivity|len|exact F].
Qed.

Lemma left_member : forall n e dot m b c r, is_text ["."; "?."]%string dot = true -> member_name m = true ->
  left_loop (S n) e ((b, (Punct, dot)) :: (c, m) :: r) = left_loop n (EMember e dot m) r.
Proof. intros n e dot m b c r I M. rewrite left_loop_eq, I, M. reflexivity. Qed.

Lemma r_wl_member : forall e dot m ts b c, R_left e ts -> is_text ["."; "?."]%string dot = true -> member_name m = true ->
  R_left (EMember e dot m) (ts ++ [(b, (Punct, dot)); (c, m)]).
Proof.
  intros e dot m ts b c [H A] I M. split; [apply hd_app, H|]. intros n r L. rewrite <- app_assoc. cbn [app].
  destruct (A n ((b, (Punct, dot)) :: (c, m) :: r)) as (n1 & L1 & E1); [len|]. destruct n1 as [|n1]; [len|].
  rewrite left_member in E1 by assumption. exists n1. split; [len|exact E1].
Qed.

Lemma left_index : forall n e b r, left_loop (S n) e ((b, P "[") :: r) = let? (i, s) := p_expr n r in let? s' := eat (P "]") s in left_loop n (EIndex e i) s'.
Proof. reflexivity. Qed.
Lemma left_call : forall n e b r, left_loop (S n) e ((b, P "(") :: r) = let? (l, s) := p_list n (P ")") r in left_loop n (ECall e l) s.
Proof. reflexivity. Qed.

Lemma r_wl_index : forall e i ts us b c, R_left e ts -> R_expr i us -> R_left (EIndex e i) (ts ++ (b, P "[") :: us ++ [(c, P "]")]).
Proof.
  intros e i ts us b c [H A] [H2 B]. split; [apply hd_app, H|]. intros n r L. rewrite <- app_assoc. cbn [app]. rewrite <- app_assoc. cbn [app].
  destruct (A n ((b, P "[") :: us ++ (c, P "]") :: r)) as (n1 & L1 & E1); [len|]. destruct n1 as [|n1]; [len|].
  rewrite left_index, B, eat_same in E1; [exists n1; split; [len|exact E1]|len|fl].
Qed.

Lemma r_wl_call : forall e l ts us b c, R_left e ts -> R_list l us -> R_left (ECall e l) (ts ++ (b, P "(") :: us ++ [(c, P ")")]).
Proof.
  intros e l ts us b c [H A] B. split; [apply hd_app, H|]. intros n r L. rewrite <- app_assoc. cbn [app]. rewrite <- app_assoc. cbn [app].
  destruct (A n ((b, P "(") :: us ++ (c, P ")") :: r)) as (n1 & L1 & E1); [len|]. destruct n1 as [|n1]; [len|].
  rewrite left_call, B in E1; [exists n1; split; [len|exact E1]|left; reflexivity|len].
Qed.

Lemma left_opt_index : forall n e a b r, left_loop (S n) e ((a, P "?.") :: (b, P "[") :: r) = let? (i, s) := p_expr n r in let? s' := eat (P "]") s in left_loop n (EOptIndex e i) s'.
Proof. reflexivity. Qed.
Lemma left_opt_call : forall n e a b r, left_loop (S n) e ((a, P "?.") :: (b, P "(") :: r) = let? (l, s) := p_list n (P ")") r in left_loop n (EOptCall e l) s.
Proof. reflexivity. Qed.
Lemma left_tag : forall n e b t r, left_loop (S n) e ((b, (Template, t)) :: r) = left_loop n (ETag e (Template, t)) r.
Proof. reflexivity. Qed.

Lemma r_wl_opt_index : forall e i ts us a b c, R_left e ts -> R_expr i us -> R_left (EOptIndex e i) (ts ++ (a, P "?.") :: (b, P "[") :: us ++ [(c, P "]")]).
Proof.
  intros e i ts us a b c [H A] [H2 B]. split; [apply hd_app, H|]. intros n r L. rewrite <- app_assoc. cbn [app]. rewrite <- app_assoc. cbn [app].
  destruct (A n ((a, P "?.") :: (b, P "[") :: us ++ (c, P "]") :: r)) as (n1 & L1 & E1); [len|]. destruct n1 as [|n1]; [len|].
  rewrite left_opt_index, B, eat_same in E1; [exists n1; split; [len|exact E1]|len|fl].
Qed.

Lemma r_wl_opt_call : forall e l ts us a b c, R_left e ts -> R_list l us -> R_left (EOptCall e l) (ts ++ (a, P "?.") :: (b, P "(") :: us ++ [(c, P ")")]).
Proof.
  intros e l ts us a b c [H A] B. split; [apply hd_app, H|]. intros n r L. rewrite <- app_assoc. cbn [app]. rewrite <- app_assoc. cbn [app].
  destruct (A n ((a, P "?.") :: (b, P "(") :: us ++ (c, P ")") :: r)) as (n1 & L1 & E1); [len|]. destruct n1 as [|n1]; [len|].
  rewrite left_opt_call, B in E1; [exists n1; split; [len|exact E1]|left; reflexivity|len].
Qed.

Lemma r_wl_tag : forall e t ts b, R_left e ts -> R_left (ETag e (Template, t)) (ts ++ [(b, (Template, t))]).
Proof.
  intros e t ts b [H A]. split; [apply hd_app, H|]. intros n r L. rewrite <- app_assoc. cbn [app].
  destruct (A n (@cons tok (b, (Template, t)) r)) as (n1 & L1 & E1); [len|]. destruct n1 as [|n1]; [len|].
  rewrite left_tag in E1. exists n1. split; [len|exact E1].
Qed.

Lemma r_wr_lit : forall e b, literal e = true -> R_primary (ELit e) [(b, e)].
Proof.
  intros [k s] b I. split; [|intros n r L; destruct n as [|n]; [len|]; rewrite p_primary_eq; cbn [app]].
  - destruct k; try discriminate I; reflexivity.
  - destruct k; try discriminate I; reflexivity.
Qed.

Lemma r_wr_paren : forall e ts b c, R_expr e ts -> R_primary (EParen e) ((b, P "(") :: ts ++ [(c, P ")")]).
Proof.
  intros e ts b c [H A]. split; [reflexivity|]. intros n r L. destruct n as [|n]; [len|]. norm. rewrite p_primary_eq. heads. rewrite A; [|len|fl]. rewrite eat_same. reflexivity.
Qed.

Lemma r_wr_array : forall l ts b c, R_list l ts -> R_primary (EArray l) ((b, P "[") :: ts ++ [(c, P "]")]).
Proof.
  intros e ts b c A. split; [reflexivity|]. intros n r L. destruct n as [|n]; [len|]. norm. rewrite p_primary_eq. heads. rewrite A; [reflexivity|right; reflexivity|len].
Qed.

Lemma r_wr_object : forall l ts b c, R_props l ts -> R_primary (EObject l) ((b, P "{") :: ts ++ [(c, P "}")]).
Proof.
  intros e ts b c A. split; [reflexivity|]. intros n r L. destruct n as [|n]; [len|]. norm. rewrite p_primary_eq. heads. rewrite A; [reflexivity|len].
Qed.

(** Paths and names. *)
Lemma path_read : forall l ts r, w_path l ts -> starts_with (P ".") r = false -> p_path (ts ++ r) = (l, r).
Proof.
  intros l ts r W H. induction W as [|x l ts b' c W IH].
  - cbn [app]. destruct r as [|[b e] r]; [reflexivity|]. cbn [starts_with snd] in H. cbn [p_path]. destruct r as [|[c [[] x]] r]; try reflexivity. rewrite H. reflexivity.
  - cbn [app p_path]. heads. rewrite IH. reflexivity.
Qed.

Lemma r_wr_new : forall x path l ts us b c d f, ident x = true -> w_path path ts -> R_list l us ->
  R_primary (ENew x path (Some l)) ((b, K "new") :: (c, (Name, x)) :: ts ++ (d, P "(") :: us ++ [(f, P ")")]).
Proof.
  intros x path l ts us b c d f I W B. split; [reflexivity|]. intros n r L. destruct n as [|n]; [len|]. norm. rewrite p_primary_eq. heads.
  rewrite I, (path_read path ts _ W) by reflexivity. rewrite eat_same, B; [reflexivity|left; reflexivity|len].
Qed.

Lemma left_first : forall r, fl_left r = true -> starts_with (P ".") r = false /\ eat (P "(") r = None.
Proof.
  intros r F. destruct r as [|[b e] r]; [split; reflexivity|]. unfold starts_with, eat. cbn [snd]. split.
  - destruct (same e (P ".")) eqn:S; [apply same_eq in S; subst e; discriminate F|reflexivity].
  - destruct (same e (P "(")) eqn:S; [apply same_eq in S; subst e; discriminate F|reflexivity].
Qed.

Lemma r_wp_new : forall x path ts b c, ident x = true -> w_path path ts -> R_post (ENew x path None) ((b, K "new") :: (c, (Name, x)) :: ts).
Proof.
  intros x path ts b c I W. split; [reflexivity|]. intros n r L F. destruct n as [|[|[|n]]]; [len|len|len|]. norm. pose proof (fl_post_left r F) as F0. destruct (left_first r F0) as [F1 F2].
  rewrite p_post_eq, p_left_eq, p_primary_eq. heads. rewrite I, (path_read path ts r W F1), F2, (left_stop n _ r F0).
  unfold fl_post in F. apply andb_true_iff in F. destruct F as [_ F]. destruct r as [|[[] [[] op]] r]; try reflexivity. apply negb_true_iff in F. rewrite F. reflexivity.
Qed.

(** Lists. *)
Lemma r_wi_none : R_list [] [].
Proof. intros n close b r C L. destruct n as [|n]; [len|]. cbn [app]. rewrite p_list_eq, eat_same. reflexivity. Qed.

Lemma closing_unclosed : forall close, closing close -> unclosed close = false.
Proof. intros close [->| ->]; reflexivity. Qed.

Lemma r_wi_some : forall l ts, R_list1 l ts -> R_list l ts.
Proof.
  intros l ts [H A] n close b r C L. destruct n as [|n]; [len|]. rewrite p_list_eq, eat_none; [apply A; [exact C|len]|].
  apply (hd_not unclosed); [apply hd_app, H|exact (closing_unclosed _ C)].
Qed.

Lemma closing_follow : forall close b r, closing close -> fl_assign ((b, close) :: r) = true /\ eat (P ",") ((b, close) :: r) = None.
Proof. intros close b r [->| ->]; split; (destruct b; reflexivity). Qed.

Lemma r_wi_one : forall e ts, R_item e ts -> R_list1 [e] ts.
Proof.
  intros e ts [H A]. split; [exact H|]. intros n close b r C L. destruct n as [|n]; [len|]. destruct (closing_follow close b r C) as [F E].
  rewrite p_list1_eq, A; [|len|exact F]. rewrite E, eat_same. reflexivity.
Qed.

Lemma r_wi_cons : forall e l ts us b, R_item e ts -> R_list l us -> R_list1 (e :: l) (ts ++ (b, P ",") :: us).
Proof.
  intros e l ts us b [H A] B. split; [apply hd_app, H|]. intros n close c r C L. destruct n as [|n]; [len|]. norm.
  rewrite p_list1_eq, A; [|len|fl]. rewrite eat_same, B; [reflexivity|exact C|len].
Qed.

Lemma starter_unclosed : forall e, starter e = true -> unclosed e = true.
Proof.
  intros e H. unfold unclosed. apply negb_true_iff, orb_false_intro; (destruct (same e _) eqn:S; [apply same_eq in S; subst e; discriminate H|reflexivity]).
Qed.
Lemma starter_inner : forall e, starter e = true -> inner e = true.
Proof. intros e H. unfold inner. apply negb_true_iff. destruct (same e _) eqn:S; [apply same_eq in S; subst e; discriminate H|reflexivity]. Qed.

Lemma r_wi_assign : forall e ts, R_assign e ts -> R_item e ts.
Proof.
  intros e ts [H A]. split; [exact (hd_imp _ _ _ starter_unclosed H)|]. intros n r L F. destruct n as [|n]; [len|]. rewrite p_item_eq.
  rewrite eat_none by (apply (hd_not starter); [apply hd_app, H|reflexivity]). apply A; [len|exact F].
Qed.

Lemma r_wi_spread : forall e ts b, R_assign e ts -> R_item (ESpread e) ((b, P "...") :: ts).
Proof. intros e ts b [H A]. split; [reflexivity|]. intros n r L F. destruct n as [|n]; [len|]. norm. rewrite p_item_eq, eat_same, A; [reflexivity|len|exact F]. Qed.

(** Keys and what stands before them. *)
Lemma key_first : forall k ks, w_key k ks -> exists b e us, ks = (b, e) :: us /\ (e = P "[" \/ keyed e = true).
Proof. intros k ks W. destruct W; [exists b, e, []; auto|exists b, (P "["), (ts ++ [(c, P "]")]); auto]. Qed.

Lemma key_keyish : forall k ks r, w_key k ks -> keyish (ks ++ r) = true.
Proof. intros k ks r W. destruct (key_first k ks W) as (b & e & us & -> & [->|K]); [reflexivity|]. cbn [app keyish]. rewrite K. apply orb_true_r. Qed.

Lemma keyed_not : forall e s, keyed e = true -> same e (P s) = false.
Proof. intros [[] x] s H; try discriminate H; reflexivity. Qed.

Lemma key_not : forall k ks r s, w_key k ks -> same (P "[") (P s) = false -> starts_with (P s) (ks ++ r) = false.
Proof. intros k ks r s W N. destruct (key_first k ks W) as (b & e & us & -> & [->|K]); [exact N|]. cbn [app starts_with snd]. exact (keyed_not e s K). Qed.

Lemma key_inner : forall k ks, w_key k ks -> hd_ok inner ks.
Proof. intros k ks W. destruct (key_first k ks W) as (b & e & us & -> & [->|K]); [reflexivity|]. cbn [hd_ok snd]. unfold inner. rewrite (keyed_not e _ K). reflexivity. Qed.

Lemma modif_read : forall h hs k ks tail, w_modif h hs -> w_key k ks -> line_ok h ks = true -> keyish tail = false -> starts_with (P "*") tail = false ->
  p_modif (hs ++ ks ++ tail) = (h, ks ++ tail).
Proof.
  intros h hs k ks tail M W L Nk Ns. pose proof (key_keyish k ks tail W) as Y. pose proof (key_not k ks tail "*" W eq_refl) as Z. destruct M as [|m b I|b|b|b]; cbn [app].
  - destruct W as [e b Kd|e ts b c W]; [|norm; reflexivity]. cbn [app p_modif]. rewrite (keyed_not e _ Kd), Nk, (eat_none _ _ Ns), andb_false_r. destruct (same e (K "async") && same_line tail); reflexivity.
  - unfold p_modif. rewrite Y. apply is_text_in in I. cbn [map In] in I. destruct I as [<-|[<-|[]]]; reflexivity.
  - reflexivity.
  - unfold p_modif. heads. change (named ["get"; "set"]%string (K "async")) with false. cbn [line_ok] in L. cbn [andb].
    replace (same_line (ks ++ tail)) with true by (destruct (key_first k ks W) as (b1 & e1 & us & -> & _); symmetry; exact L). rewrite (eat_none _ _ Z), Y. reflexivity.
  - reflexivity.
Qed.

Lemma modif_plain : forall k ks tail, w_key k ks -> keyish tail = false -> starts_with (P "*") tail = false -> p_modif (ks ++ tail) = (HPlain, ks ++ tail).
Proof. intros k ks tail W. exact (modif_read HPlain [] k ks tail wmo_plain W eq_refl). Qed.

Lemma static_read : forall st ss h hs k ks tail, w_static st ss -> w_modif h hs -> w_key k ks -> keyish tail = false -> starts_with (P "*") tail = false ->
  p_static (ss ++ hs ++ ks ++ tail) = (st, hs ++ ks ++ tail).
Proof.
  intros st ss h hs k ks tail St M W Nk Ns. pose proof (key_keyish k ks tail W) as Y. destruct St as [|b]; cbn [app].
  - destruct M as [|m b I|b|b|b]; cbn [app]; try reflexivity.
    + destruct W as [e b Kd|e ts b c W]; [|norm; reflexivity]. cbn [app p_static]. rewrite Nk, Ns, andb_false_r. reflexivity.
    + unfold p_static. apply is_text_in in I. cbn [map In] in I. destruct I as [<-|[<-|[]]]; reflexivity.
  - unfold p_static. heads. destruct M as [|m c I|c|c|c]; cbn [app]; try reflexivity. rewrite Y. reflexivity.
Qed.

Lemma r_wke_name : forall e b, keyed e = true -> R_key (KName e) [(b, e)].
Proof. intros e b K. split; [len|]. intros n r L. destruct n as [|n]; [len|]. rewrite p_key_eq. cbn [app]. rewrite (keyed_not e _ K), K. reflexivity. Qed.

Lemma r_wke_expr : forall e ts b c, R_assign e ts -> R_key (KExpr e) ((b, P "[") :: ts ++ [(c, P "]")]).
Proof. intros e ts b c [H A]. split; [len|]. intros n r L. destruct n as [|n]; [len|]. norm. rewrite p_key_eq. heads. rewrite A; [|len|fl]. rewrite eat_same. reflexivity. Qed.

(** Objects. *)
Lemma r_wo_none : R_props [] [].
Proof. intros n b r L. destruct n as [|n]; [len|]. cbn [app]. rewrite p_props_eq, eat_same. reflexivity. Qed.

Lemma r_wo_some : forall l ts, R_props1 l ts -> R_props l ts.
Proof.
  intros l ts [H A] n b r L. destruct n as [|n]; [len|]. rewrite p_props_eq, eat_none; [apply A; len|].
  apply (hd_not inner); [apply hd_app, H|reflexivity].
Qed.

Lemma r_wo_one : forall p ts, R_prop p ts -> R_props1 [p] ts.
Proof.
  intros p ts [H A]. split; [exact H|]. intros n d r L. destruct n as [|n]; [len|]. rewrite p_props1_eq, A; [|len|reflexivity].
  rewrite eat_none by reflexivity. rewrite eat_same. reflexivity.
Qed.

Lemma r_wo_cons : forall p l ts us b, R_prop p ts -> R_props l us -> R_props1 (p :: l) (ts ++ (b, P ",") :: us).
Proof.
  intros p l ts us b [H A] B. split; [apply hd_app, H|]. intros n g r L. destruct n as [|n]; [len|]. norm. rewrite p_props1_eq, A; [|len|reflexivity].
  rewrite eat_same, B; [reflexivity|len].
Qed.

Lemma sep_cases : forall r, sep r = true -> exists b x, r = (b, P ",") :: x \/ r = (b, P "}") :: x.
Proof.
  intros [|[b e] r] H; [discriminate H|]. unfold sep in H. cbn [starts_with snd] in H. apply orb_true_iff in H. exists b, r.
  destruct H as [H|H]; apply same_eq in H; subst e; auto.
Qed.

Lemma sep_assign : forall r, sep r = true -> fl_assign r = true.
Proof. intros r H. destruct (sep_cases r H) as (b & x & [->| ->]); destruct b; reflexivity. Qed.

Lemma r_wo_key : forall k e ts us b, w_key k ts -> R_key k ts -> R_assign e us -> R_prop (OKey k e) (ts ++ (b, P ":") :: us).
Proof.
  intros k e ts us b W [L1 A] [H B]. split; [apply hd_app, (key_inner k ts W)|]. intros n r L F. destruct n as [|n]; [len|]. norm.
  rewrite p_prop_eq, (eat_none _ _ (key_not k ts _ "..." W eq_refl)), (modif_plain k ts _ W) by reflexivity. rewrite A by len.
  change (starts_with (P "(") ((b, P ":") :: us ++ r)) with false. cbv iota. rewrite eat_same, B; [reflexivity|len|exact (sep_assign r F)].
Qed.

Lemma r_wo_short : forall x b, binding x = true -> R_prop (OShort x) [(b, (Name, x))].
Proof.
  intros x b I. split; [reflexivity|]. intros n r L F. destruct n as [|n]; [len|]. assert (W : w_key (KName (Name, x)) [(b, (Name, x))]) by (constructor; reflexivity).
  destruct (r_wke_name (Name, x) b eq_refl) as [_ A]. rewrite p_prop_eq, (eat_none _ _ (key_not _ _ r "..." W eq_refl)).
  assert (X : keyish r = false /\ starts_with (P "*") r = false /\ starts_with (P "(") r = false /\ eat (P ":") r = None) by (destruct (sep_cases r F) as (c & y & [->| ->]); auto).
  destruct X as (X1 & X2 & X3 & X4). pose proof (modif_read HPlain [] _ _ r wmo_plain W eq_refl X1 X2) as M. cbn [app] in *. rewrite M, A, X3, X4 by len. rewrite I. reflexivity.
Qed.

Lemma r_wo_spread : forall e ts b, R_assign e ts -> R_prop (OSpread e) ((b, P "...") :: ts).
Proof. intros e ts b [H A]. split; [reflexivity|]. intros n r L F. destruct n as [|n]; [len|]. norm. rewrite p_prop_eq, eat_same, A; [reflexivity|len|exact (sep_assign r F)]. Qed.

Lemma modif_not : forall h hs k ks r s, w_modif h hs -> w_key k ks -> same (P "[") (P s) = false -> same (P "*") (P s) = false -> starts_with (P s) (hs ++ ks ++ r) = false.
Proof. intros h hs k ks r s M W N1 N2. destruct M; cbn [app]; try reflexivity; [exact (key_not k ks r s W N1)|exact N2]. Qed.

Lemma modif_inner : forall h hs k ks us, w_modif h hs -> w_key k ks -> hd_ok inner (hs ++ ks ++ us).
Proof. intros h hs k ks us M W. destruct M; cbn [app]; try reflexivity. apply hd_app, (key_inner k ks W). Qed.

Lemma params_first : forall l ts r, R_params l ts -> exists b x, ts ++ r = (b, P "(") :: x.
Proof. intros l ts r (S & _). destruct ts as [|[b t] ts]; [discriminate S|]. cbn [starts_with snd] in S. apply same_eq in S. subst t. exists b, (ts ++ r). reflexivity. Qed.

Lemma r_wo_method : forall h k ps body hs ks ts us, w_modif h hs -> w_key k ks -> R_key k ks -> line_ok h ks = true -> R_params ps ts -> R_body body us ->
  R_prop (OMethod h k ps body) (hs ++ ks ++ ts ++ us).
Proof.
  intros h k ps l hs ks ts us M W [L1 A] Lo B (S & L2 & C). split; [exact (modif_inner h hs k ks _ M W)|]. intros n r L F. destruct n as [|n]; [len|]. norm.
  destruct (params_first ps ts (us ++ r) B) as (b & x & E). destruct B as (S2 & L3 & B).
  rewrite p_prop_eq, (eat_none _ _ (modif_not h hs k ks _ "..." M W eq_refl eq_refl)), (modif_read h hs k ks _ M W Lo) by (rewrite E; reflexivity).
  rewrite A by len. replace (starts_with (P "(") (ts ++ us ++ r)) with true by (rewrite E; reflexivity). rewrite B, C by len. reflexivity.
Qed.

(** Functions and classes. *)
Lemma fun_read : forall a g hs r, w_fun a g hs -> starts_with (P "*") r = false -> p_fun (hs ++ r) = Some (a, g, r).
Proof.
  intros a g hs r W N. pose proof (eat_none _ _ N) as E. assert (Z : p_fun_star r = (false, r)) by (unfold p_fun_star; rewrite E; reflexivity). destruct W; try reflexivity.
  - change (p_fun ([(b, K "function")] ++ r)) with (let (g, s') := p_fun_star r in Some (false, g, s')). rewrite Z. reflexivity.
  - change (p_fun ([(b, K "async"); (false, K "function")] ++ r)) with (let (g, s') := p_fun_star r in Some (true, g, s')). rewrite Z. reflexivity.
Qed.

Lemma name_read : forall x ns r, w_name x ns -> p_name r = (None, r) -> p_name (ns ++ r) = (x, r).
Proof. intros x ns r W H. destruct W as [|x b I]; [exact H|]. cbn [app p_name fst snd kind_eqb andb]. rewrite I. reflexivity. Qed.

Lemma r_wfu : forall a g x ps body hs ns ts us, w_fun a g hs -> w_name x ns -> R_params ps ts -> R_body body us ->
  R_function (Func a g x ps body) (hs ++ ns ++ ts ++ us).
Proof.
  intros a g x ps l hs ns ts us F W A (S & L2 & B) n r L. destruct n as [|n]; [len|]. norm. destruct (params_first ps ts (us ++ r) A) as (b & y & E). destruct A as (S2 & L3 & A).
  rewrite p_function_eq, (fun_read a g hs _ F) by (destruct W; cbn [app]; [rewrite E|]; reflexivity).
  rewrite (name_read x ns _ W) by (rewrite E; reflexivity). rewrite A, B by len. reflexivity.
Qed.

Lemma function_first : forall f ts, w_function f ts -> (exists b us, ts = (b, K "function") :: us) \/ (exists b us, ts = (b, K "async") :: (false, K "function") :: us).
Proof. intros f ts W. destruct W as [a g x ps body hs ns ts us W _ _ _]. destruct W; cbn [app]; eauto. Qed.

Lemma r_wr_fun : forall f ts, w_function f ts -> R_function f ts -> R_primary (EFun f) ts.
Proof.
  intros f ts W A. destruct (function_first f ts W) as [(b & us & ->)|(b & us & ->)]; (split; [reflexivity|]); intros n r L; (destruct n as [|n]; [len|]); rewrite p_primary_eq;
    pose proof (A n r ltac:(len)) as E; cbn [app] in *; heads; rewrite E; reflexivity.
Qed.

Lemma class_first : forall c ts, w_class c ts -> exists b us, ts = (b, K "class") :: us.
Proof. intros c ts W. destruct W. eauto. Qed.

Lemma r_wr_class : forall c ts, w_class c ts -> R_class c ts -> R_primary (EClass c) ts.
Proof.
  intros c ts W A. destruct (class_first c ts W) as (b & us & ->). split; [reflexivity|]. intros n r L. destruct n as [|n]; [len|]. rewrite p_primary_eq. pose proof (A n r ltac:(len)) as E. cbn [app] in *. heads.
  rewrite E. reflexivity.
Qed.

Lemma r_wex_none : R_ext None [].
Proof. intros n b r L. destruct n as [|n]; [len|]. reflexivity. Qed.

Lemma r_wex_some : forall e ts b, R_left e ts -> R_ext (Some e) ((b, K "extends") :: ts).
Proof.
  intros e ts b [H A] n c r L. destruct n as [|n]; [len|]. cbn [app]. rewrite p_ext_eq, eat_same. destruct (A n ((c, P "{") :: r)) as (n1 & L1 & E1); [len|].
  destruct n1 as [|n1]; [len|]. rewrite E1, left_stop by reflexivity. reflexivity.
Qed.

Lemma r_wcl : forall x o l ns es ts b c d, w_name x ns -> w_ext o es -> R_ext o es -> R_members l ts ->
  R_class (Class x o l) ((b, K "class") :: ns ++ es ++ (c, P "{") :: ts ++ [(d, P "}")]).
Proof.
  intros x o l ns es ts b c d W V A B n r L. destruct n as [|n]; [len|]. norm. rewrite p_class_eq, eat_same, (name_read x ns _ W) by (destruct V; reflexivity).
  rewrite A, eat_same, B by len. reflexivity.
Qed.

Lemma r_wg_none : R_members [] [].
Proof. intros n b r L. destruct n as [|n]; [len|]. cbn [app]. rewrite p_members_eq, eat_same. reflexivity. Qed.

Lemma r_wg_one : forall m ts, R_member true m ts -> R_members [m] ts.
Proof.
  intros m ts [H A] n b r L. pose proof (hd_length _ _ H) as L1. destruct n as [|[|n]]; [len|len|]. rewrite p_members_eq, eat_none by (apply (hd_not inner); [apply hd_app, H|reflexivity]).
  rewrite A; [|len|reflexivity]. rewrite p_members_eq, eat_same. reflexivity.
Qed.

Lemma r_wg_cons : forall m l ts us, R_member false m ts -> R_members l us -> R_members (m :: l) (ts ++ us).
Proof.
  intros m l ts us [H A] B n b r L. pose proof (hd_length _ _ H) as L1. destruct n as [|n]; [len|]. norm. rewrite p_members_eq, eat_none by (apply (hd_not inner); [apply hd_app, H|reflexivity]).
  rewrite A; [|len|discriminate]. rewrite B by len. reflexivity.
Qed.

Lemma r_wg_empty : forall last b, R_member last MEmpty [(b, P ";")].
Proof. intros last b. split; [reflexivity|]. intros n r L F. destruct n as [|n]; [len|]. reflexivity. Qed.

Lemma static_not : forall st ss h hs k ks r s, w_static st ss -> w_modif h hs -> w_key k ks -> same (P "[") (P s) = false -> same (P "*") (P s) = false -> starts_with (P s) (ss ++ hs ++ ks ++ r) = false.
Proof. intros st ss h hs k ks r s St M W N1 N2. destruct St; [exact (modif_not h hs k ks r s M W N1 N2)|reflexivity]. Qed.

Lemma static_inner : forall st ss h hs k ks us, w_static st ss -> w_modif h hs -> w_key k ks -> hd_ok inner (ss ++ hs ++ ks ++ us).
Proof. intros st ss h hs k ks us St M W. destruct St; [exact (modif_inner h hs k ks us M W)|reflexivity]. Qed.

Lemma r_wg_method : forall last st h k ps body ss hs ks ts us, w_static st ss -> w_modif h hs -> w_key k ks -> R_key k ks -> line_ok h ks = true ->
  R_params ps ts -> R_body body us -> R_member last (MMethod st h k ps body) (ss ++ hs ++ ks ++ ts ++ us).
Proof.
  intros last st h k ps l ss hs ks ts us St M W [L1 A] Lo B (S & L2 & C). split; [exact (static_inner st ss h hs k ks _ St M W)|]. intros n r L F. destruct n as [|n]; [len|]. norm.
  destruct (params_first ps ts (us ++ r) B) as (b & x & E). destruct B as (S2 & L3 & B).
  rewrite p_member_eq, (eat_none _ _ (static_not st ss h hs k ks _ ";" St M W eq_refl eq_refl)), (static_read st ss h hs k ks _ St M W) by (rewrite E; reflexivity).
  rewrite (modif_read h hs k ks _ M W Lo) by (rewrite E; reflexivity).
  rewrite A by len. replace (starts_with (P "(") (ts ++ us ++ r)) with true by (rewrite E; reflexivity). rewrite B, C by len. reflexivity.
Qed.

Lemma end_first : forall last us r, w_end last us -> (last = true -> ends r = true) -> exists b x, us ++ r = (b, P ";") :: x \/ us ++ r = (b, P "}") :: x \/ us ++ r = [].
Proof.
  intros last us r W F. destruct W as [last b|]; [exists b, r; auto|]. cbn [app]. specialize (F eq_refl). destruct r as [|[b t] r]; [exists false, []; auto|].
  cbn [ends snd] in F. apply same_eq in F. subst t. exists b, r. auto.
Qed.

Lemma end_read : forall last us r, w_end last us -> (last = true -> ends r = true) -> semicolon (us ++ r) = Some r.
Proof.
  intros last us r W F. destruct W as [last b|]; [reflexivity|]. cbn [app]. specialize (F eq_refl). destruct r as [|[b t] r]; [reflexivity|].
  cbn [ends snd] in F. apply same_eq in F. subst t. reflexivity.
Qed.

Lemma r_wg_field : forall last st k ss ks us, w_static st ss -> w_key k ks -> R_key k ks -> w_end last us -> R_member last (MField st k None) (ss ++ ks ++ us).
Proof.
  intros last st k ss ks us St W [L1 A] E. split; [exact (static_inner st ss HPlain [] k ks _ St wmo_plain W)|]. intros n r L F. destruct n as [|n]; [len|]. norm.
  assert (X : keyish (us ++ r) = false /\ starts_with (P "*") (us ++ r) = false /\ starts_with (P "(") (us ++ r) = false /\ eat (P "=") (us ++ r) = None)
    by (destruct (end_first last us r E F) as (c & y & [-> |[-> | ->]]); auto).
  destruct X as (X1 & X2 & X3 & X4).
  pose proof (static_not st ss HPlain [] k ks (us ++ r) ";" St wmo_plain W eq_refl eq_refl) as Z1.
  pose proof (static_read st ss HPlain [] k ks (us ++ r) St wmo_plain W X1 X2) as Z2.
  pose proof (modif_read HPlain [] k ks (us ++ r) wmo_plain W eq_refl X1 X2) as Z3. cbn [app] in Z1, Z2, Z3.
  rewrite p_member_eq, (eat_none _ _ Z1), Z2, Z3, A by len. rewrite X3, X4, (end_read last us r E F). reflexivity.
Qed.

Lemma r_wg_value : forall last st k e ss ks ts us b, w_static st ss -> w_key k ks -> R_key k ks -> R_assign e ts -> w_end last us ->
  R_member last (MField st k (Some e)) (ss ++ ks ++ (b, P "=") :: ts ++ us).
Proof.
  intros last st k e ss ks ts us b St W [L1 A] [H B] E. split; [exact (static_inner st ss HPlain [] k ks _ St wmo_plain W)|]. intros n r L F. destruct n as [|n]; [len|]. norm.
  set (tail := @cons tok (b, P "=") (ts ++ us ++ r)).
  pose proof (static_not st ss HPlain [] k ks tail ";" St wmo_plain W eq_refl eq_refl) as Z1.
  pose proof (static_read st ss HPlain [] k ks tail St wmo_plain W eq_refl eq_refl) as Z2.
  pose proof (modif_read HPlain [] k ks tail wmo_plain W eq_refl eq_refl eq_refl) as Z3. cbn [app] in Z1, Z2, Z3.
  rewrite p_member_eq, (eat_none _ _ Z1), Z2, Z3, A by len. change (starts_with (P "(") tail) with false. cbv iota. unfold tail. rewrite eat_same, B.
  - rewrite (end_read last us r E F). reflexivity.
  - len.
  - destruct (end_first last us r E F) as (c & y & [-> |[-> | ->]]); [destruct c; reflexivity|destruct c; reflexivity|reflexivity].
Qed.

(** Parameters and patterns. *)
Lemma r_wq : forall l ts b c, R_elems l ts -> R_params l ((b, P "(") :: ts ++ [(c, P ")")]).
Proof.
  intros l ts b c A. split; [reflexivity|]. split; [len|]. intros n r L. destruct n as [|n]; [len|]. norm. rewrite p_params_eq, eat_same. apply A; [left; reflexivity|len].
Qed.

Lemma r_wj_none : R_elems [] [].
Proof. intros n close b r C L. destruct n as [|n]; [len|]. cbn [app]. rewrite p_elems_eq, eat_same. reflexivity. Qed.

Lemma r_wj_some : forall l ts, R_elems1 l ts -> R_elems l ts.
Proof.
  intros l ts [H A] n close b r C L. destruct n as [|n]; [len|]. rewrite p_elems_eq, eat_none; [apply A; [exact C|len]|].
  apply (hd_not unclosed); [apply hd_app, H|exact (closing_unclosed _ C)].
Qed.

Lemma r_wj_one : forall p ts, R_elem p ts -> R_elems1 [p] ts.
Proof.
  intros p ts [H A]. split; [exact (hd_imp _ _ _ starter_unclosed H)|]. intros n close b r C L. destruct n as [|n]; [len|]. destruct (closing_follow close b r C) as [F E].
  rewrite p_elems1_eq, eat_none by (apply (hd_not starter); [apply hd_app, H|reflexivity]). rewrite A; [|len|exact F]. rewrite E, eat_same. reflexivity.
Qed.

Lemma r_wj_rest : forall p ts b, R_pat p ts -> R_elems1 [PRest p] ((b, P "...") :: ts).
Proof.
  intros p ts b [H A]. split; [reflexivity|]. intros n close c r C L. destruct n as [|n]; [len|]. norm. rewrite p_elems1_eq, eat_same, A by len. rewrite eat_same. reflexivity.
Qed.

Lemma r_wj_cons : forall p l ts us b, R_elem p ts -> R_elems l us -> R_elems1 (p :: l) (ts ++ (b, P ",") :: us).
Proof.
  intros p l ts us b [H A] B. split; [apply hd_app, (hd_imp _ _ _ starter_unclosed H)|]. intros n close c r C L. destruct n as [|n]; [len|]. norm.
  rewrite p_elems1_eq, eat_none by (apply (hd_not starter); [apply hd_app, H|reflexivity]). rewrite A; [|len|fl]. rewrite eat_same, B; [reflexivity|exact C|len].
Qed.

Lemma assign_no_equal : forall r, fl_assign r = true -> eat (P "=") r = None.
Proof.
  intros r F. apply eat_none. unfold fl_assign in F. apply andb_true_iff in F. destruct F as [F _]. apply andb_true_iff in F. destruct F as [_ F]. destruct r as [|[b t] r]; [reflexivity|].
  unfold starts_with. cbn [snd]. destruct (same t (P "=")) eqn:E; [|reflexivity]. apply same_eq in E. subst t. discriminate F.
Qed.

Lemma r_wel_pat : forall p ts, R_pat p ts -> R_elem p ts.
Proof. intros p ts [H A]. split; [exact H|]. intros n r L F. destruct n as [|n]; [len|]. rewrite p_elem_eq, A by len. rewrite (assign_no_equal r F). reflexivity. Qed.

Lemma r_wel_default : forall p e ts us b, R_pat p ts -> R_assign e us -> R_elem (PDefault p e) (ts ++ (b, P "=") :: us).
Proof.
  intros p e ts us b [H A] [H2 B]. split; [apply hd_app, H|]. intros n r L F. destruct n as [|n]; [len|]. norm. rewrite p_elem_eq, A by len. rewrite eat_same, B; [reflexivity|len|exact F].
Qed.

Lemma r_wpa_name : forall x b, binding x = true -> R_pat (PName x) [(b, (Name, x))].
Proof. intros x b I. split; [reflexivity|]. intros n r L. destruct n as [|n]; [len|]. rewrite p_pat_eq. cbn [app p_name fst snd kind_eqb andb]. rewrite I. reflexivity. Qed.

Lemma r_wpa_array : forall l ts b c, R_elems l ts -> R_pat (PArray l) ((b, P "[") :: ts ++ [(c, P "]")]).
Proof. intros l ts b c A. split; [reflexivity|]. intros n r L. destruct n as [|n]; [len|]. norm. rewrite p_pat_eq. heads. rewrite A; [reflexivity|right; reflexivity|len]. Qed.

Lemma r_wpa_object : forall l ts b c, R_fields l ts -> R_pat (PObject l) ((b, P "{") :: ts ++ [(c, P "}")]).
Proof. intros l ts b c A. split; [reflexivity|]. intros n r L. destruct n as [|n]; [len|]. norm. rewrite p_pat_eq. heads. rewrite A; [reflexivity|len]. Qed.

Lemma r_wfi_none : R_fields [] [].
Proof. intros n b r L. destruct n as [|n]; [len|]. cbn [app]. rewrite p_fields_eq, eat_same. reflexivity. Qed.

Lemma r_wfi_some : forall l ts, R_fields1 l ts -> R_fields l ts.
Proof.
  intros l ts [H A] n b r L. destruct n as [|n]; [len|]. rewrite p_fields_eq, eat_none; [apply A; len|].
  apply (hd_not inner); [apply hd_app, H|reflexivity].
Qed.

Lemma r_wfi_one : forall p ts, R_field p ts -> R_fields1 [p] ts.
Proof.
  intros p ts [H A]. split; [exact H|]. intros n d r L. destruct n as [|n]; [len|]. rewrite p_fields1_eq, A; [|len|reflexivity].
  rewrite eat_none by reflexivity. rewrite eat_same. reflexivity.
Qed.

Lemma r_wfi_cons : forall p l ts us b, R_field p ts -> R_fields l us -> R_fields1 (p :: l) (ts ++ (b, P ",") :: us).
Proof.
  intros p l ts us b [H A] B. split; [apply hd_app, H|]. intros n g r L. destruct n as [|n]; [len|]. norm. rewrite p_fields1_eq, A; [|len|reflexivity].
  rewrite eat_same, B; [reflexivity|len].
Qed.

Lemma field_name : forall n x b r, (2 <= n)%nat -> starts_with (P ":") r = false -> binding x = true -> p_field n ((b, (Name, x)) :: r) =
  match eat (P "=") r with Some r1 => let? (e, s) := p_assign (pred n) r1 in Some (PDefault (PName x) e, s) | None => Some (PName x, r) end.
Proof.
  intros n x b r L H I. destruct n as [|[|n]]; [lia|lia|]. rewrite p_field_eq, eat_none by reflexivity. rewrite p_key_eq. change (same (Name, x) (P "[")) with false. change (keyed (Name, x)) with true. cbv iota.
  rewrite (eat_none _ _ H), I. reflexivity.
Qed.

Lemma r_wfi_short : forall x b, binding x = true -> R_field (PName x) [(b, (Name, x))].
Proof.
  intros x b I. split; [reflexivity|]. intros n r L F. cbn [app]. rewrite field_name; [|len|destruct (sep_cases r F) as (c & y & [->| ->]); reflexivity|exact I].
  rewrite (assign_no_equal r (sep_assign r F)). reflexivity.
Qed.

Lemma r_wfi_default : forall x e ts b c, binding x = true -> R_assign e ts -> R_field (PDefault (PName x) e) ((b, (Name, x)) :: (c, P "=") :: ts).
Proof.
  intros x e ts b c I [H A]. split; [reflexivity|]. intros n r L F. cbn [app]. rewrite field_name; [|len|reflexivity|exact I]. rewrite eat_same, A; [reflexivity|len|exact (sep_assign r F)].
Qed.

Lemma r_wfi_key : forall k p ts us b, w_key k ts -> R_key k ts -> R_elem p us -> R_field (PKey k p) (ts ++ (b, P ":") :: us).
Proof.
  intros k p ts us b W [L1 A] [H B]. split; [apply hd_app, (key_inner k ts W)|]. intros n r L F. destruct n as [|n]; [len|]. norm.
  rewrite p_field_eq, (eat_none _ _ (key_not k ts _ "..." W eq_refl)), A, eat_same, B; [reflexivity|len|exact (sep_assign r F)|len].
Qed.

Lemma r_wfi_rest : forall x b c, binding x = true -> R_field (PRest (PName x)) [(b, P "..."); (c, (Name, x))].
Proof.
  intros x b c I. split; [reflexivity|]. intros n r L F. destruct n as [|n]; [len|]. cbn [app]. rewrite p_field_eq, eat_same. cbn [p_name fst snd kind_eqb andb]. rewrite I. reflexivity.
Qed.

(** Phrases of the grammar of JsTreeSpec: induction, brackets in pairs, and where no arrow function
    and no label starts. *)
From Coq Require Import String Arith List NArith Bool Lia.
From Verif Require Import Base EsSpec JsPlainSpec JsTreeSpec JsTreeProofs1.
Import ListNotations.
Open Scope N_scope.

Scheme w_expr_mind := Minimality for w_expr Sort Prop
with w_assign_mind := Minimality for w_assign Sort Prop
with w_arrow_mind := Minimality for w_arrow Sort Prop
with w_cond_mind := Minimality for w_cond Sort Prop
with w_bin_mind := Minimality for w_bin Sort Prop
with w_unary_mind := Minimality for w_unary Sort Prop
with w_post_mind := Minimality for w_post Sort Prop
with w_left_mind := Minimality for w_left Sort Prop
with w_primary_mind := Minimality for w_primary Sort Prop
with w_list_mind := Minimality for w_list Sort Prop
with w_list1_mind := Minimality for w_list1 Sort Prop
with w_item_mind := Minimality for w_item Sort Prop
with w_props_mind := Minimality for w_props Sort Prop
with w_props1_mind := Minimality for w_props1 Sort Prop
with w_prop_mind := Minimality for w_prop Sort Prop
with w_key_mind := Minimality for w_key Sort Prop
with w_function_mind := Minimality for w_function Sort Prop
with w_class_mind := Minimality for w_class Sort Prop
with w_ext_mind := Minimality for w_ext Sort Prop
with w_members_mind := Minimality for w_members Sort Prop
with w_member_mind := Minimality for w_member Sort Prop
with w_params_mind := Minimality for w_params Sort Prop
with w_elems_mind := Minimality for w_elems Sort Prop
with w_elems1_mind := Minimality for w_elems1 Sort Prop
with w_elem_mind := Minimality for w_elem Sort Prop
with w_pat_mind := Minimality for w_pat Sort Prop
with w_fields_mind := Minimality for w_fields Sort Prop
with w_fields1_mind := Minimality for w_fields1 Sort Prop
with w_field_mind := Minimality for w_field Sort Prop
with w_body_mind := Minimality for w_body Sort Prop
with w_stmts_mind := Minimality for w_stmts Sort Prop
with w_stmts1_mind := Minimality for w_stmts1 Sort Prop
with w_stmt_mind := Minimality for w_stmt Sort Prop
with w_decls_mind := Minimality for w_decls Sort Prop
with w_decl_mind := Minimality for w_decl Sort Prop
with w_init_mind := Minimality for w_init Sort Prop
with w_opt_mind := Minimality for w_opt Sort Prop
with w_handler_mind := Minimality for w_handler Sort Prop
with w_final_mind := Minimality for w_final Sort Prop
with w_cases_mind := Minimality for w_cases Sort Prop
with w_case_mind := Minimality for w_case Sort Prop.
Combined Scheme w_mind from w_expr_mind, w_assign_mind, w_arrow_mind, w_cond_mind, w_bin_mind, w_unary_mind, w_post_mind, w_left_mind, w_primary_mind, w_list_mind, w_list1_mind, w_item_mind, w_props_mind, w_props1_mind, w_prop_mind, w_key_mind, w_function_mind, w_class_mind, w_ext_mind, w_members_mind, w_member_mind, w_params_mind, w_elems_mind, w_elems1_mind, w_elem_mind, w_pat_mind, w_fields_mind, w_fields1_mind, w_field_mind, w_body_mind, w_stmts_mind, w_stmts1_mind, w_stmt_mind, w_decls_mind, w_decl_mind, w_init_mind, w_opt_mind, w_handler_mind, w_final_mind, w_cases_mind, w_case_mind.

Ltac norm := repeat (progress (rewrite <- ?app_assoc; cbn [app])).

(** ** Brackets *)

Definition bal (ts : list tok) : Prop := forall d r, after_paren d (ts ++ r) = after_paren d r.
Definition loud (e : element) : bool := same e (P "(") || same e (P ")").

Lemma ap_open : forall d b r, after_paren d ((b, P "(") :: r) = after_paren (S d) r.
Proof. reflexivity. Qed.
Lemma ap_close : forall d b r, after_paren (S d) ((b, P ")") :: r) = after_paren d r.
Proof. reflexivity. Qed.
Lemma ap_quiet : forall d b e r, loud e = false -> after_paren d ((b, e) :: r) = after_paren d r.
Proof. intros d b e r H. unfold loud in H. apply orb_false_elim in H. destruct H as [H1 H2]. cbn [after_paren]. rewrite H1, H2. reflexivity. Qed.
Lemma bal_nil : bal [].
Proof. intros d r. reflexivity. Qed.

Ltac listed H := repeat (destruct H as [H|H]; [subst; reflexivity|]); destruct H.
Lemma quiet_assign : forall op, is_text assign_ops op = true -> loud (Punct, op) = false.
Proof. intros op H. apply is_text_in in H. unfold assign_ops in H. cbn [map In] in H. listed H. Qed.
Lemma quiet_rank : forall o q, rank o = Some q -> loud o = false.
Proof. intros o q H. apply rank_in in H. unfold ranks in H. cbn [In] in H. repeat (destruct H as [H|H]; [injection H as <- <-; reflexivity|]). destruct H. Qed.
Lemma quiet_prefix : forall o, prefix o = true -> loud o = false.
Proof. intros o H. apply prefix_in in H. unfold prefixes in H. cbn [In] in H. listed H. Qed.
Lemma quiet_increments : forall op, increments op = true -> loud (Punct, op) = false.
Proof. intros op H. apply is_text_in in H. cbn [map In] in H. listed H. Qed.
Lemma quiet_dot : forall op, is_text ["."; "?."]%string op = true -> loud (Punct, op) = false.
Proof. intros op H. apply is_text_in in H. cbn [map In] in H. listed H. Qed.
Lemma quiet_literal : forall e, literal e = true -> loud e = false.
Proof. intros [[] s] H; (reflexivity || discriminate H). Qed.
Lemma quiet_keyed : forall e, keyed e = true -> loud e = false.
Proof. intros [[] s] H; (reflexivity || discriminate H). Qed.
Lemma quiet_member : forall e, member_name e = true -> loud e = false.
Proof. intros [[] s] H; (reflexivity || discriminate H). Qed.

Ltac quiet := first [ reflexivity | apply quiet_assign; assumption | eapply quiet_rank; eassumption | apply quiet_prefix; assumption
  | apply quiet_increments; assumption | apply quiet_dot; assumption | apply quiet_literal; assumption
  | apply quiet_keyed; assumption | apply quiet_member; assumption ].
Ltac step := first [ rewrite ap_open | rewrite ap_close | rewrite ap_quiet by quiet
  | match goal with H : bal ?t |- context [after_paren ?d (?t ++ ?x)] => rewrite (H d x) end ].
Ltac balance := intros d0 r0; norm; repeat step; reflexivity.

Lemma bal_path : forall l ts, w_path l ts -> bal ts.
Proof. intros l ts H. induction H; balance. Qed.
Lemma bal_end : forall b ts, w_end b ts -> bal ts.
Proof. intros b ts H. destruct H; balance. Qed.
Lemma bal_name : forall x ts, w_name x ts -> bal ts.
Proof. intros x ts H. destruct H; balance. Qed.
Lemma bal_fun : forall a g ts, w_fun a g ts -> bal ts.
Proof. intros a g ts H. destruct H; balance. Qed.
Lemma bal_modif : forall h ts, w_modif h ts -> bal ts.
Proof. intros h ts H. destruct H; balance. Qed.
Lemma bal_static : forall h ts, w_static h ts -> bal ts.
Proof. intros h ts H. destruct H; balance. Qed.
Lemma bal_async : forall h ts, w_async h ts -> bal ts.
Proof. intros h ts H. destruct H; balance. Qed.

Lemma written_bal : (forall e ts, w_expr e ts -> bal ts)
  /\ (forall e ts, w_assign e ts -> bal ts)
  /\ (forall e ts, w_arrow e ts -> bal ts)
  /\ (forall e ts, w_cond e ts -> bal ts)
  /\ (forall p e ts, w_bin p e ts -> bal ts)
  /\ (forall e ts, w_unary e ts -> bal ts)
  /\ (forall e ts, w_post e ts -> bal ts)
  /\ (forall e ts, w_left e ts -> bal ts)
  /\ (forall e ts, w_primary e ts -> bal ts)
  /\ (forall e ts, w_list e ts -> bal ts)
  /\ (forall e ts, w_list1 e ts -> bal ts)
  /\ (forall e ts, w_item e ts -> bal ts)
  /\ (forall e ts, w_props e ts -> bal ts)
  /\ (forall e ts, w_props1 e ts -> bal ts)
  /\ (forall e ts, w_prop e ts -> bal ts)
  /\ (forall e ts, w_key e ts -> bal ts)
  /\ (forall e ts, w_function e ts -> bal ts)
  /\ (forall e ts, w_class e ts -> bal ts)
  /\ (forall e ts, w_ext e ts -> bal ts)
  /\ (forall e ts, w_members e ts -> bal ts)
  /\ (forall p e ts, w_member p e ts -> bal ts)
  /\ (forall e ts, w_params e ts -> bal ts)
  /\ (forall e ts, w_elems e ts -> bal ts)
  /\ (forall e ts, w_elems1 e ts -> bal ts)
  /\ (forall e ts, w_elem e ts -> bal ts)
  /\ (forall e ts, w_pat e ts -> bal ts)
  /\ (forall e ts, w_fields e ts -> bal ts)
  /\ (forall e ts, w_fields1 e ts -> bal ts)
  /\ (forall e ts, w_field e ts -> bal ts)
  /\ (forall e ts, w_body e ts -> bal ts)
  /\ (forall p e ts, w_stmts p e ts -> bal ts)
  /\ (forall p e ts, w_stmts1 p e ts -> bal ts)
  /\ (forall p e ts, w_stmt p e ts -> bal ts)
  /\ (forall e ts, w_decls e ts -> bal ts)
  /\ (forall e ts, w_decl e ts -> bal ts)
  /\ (forall e ts, w_init e ts -> bal ts)
  /\ (forall e ts, w_opt e ts -> bal ts)
  /\ (forall e ts, w_handler e ts -> bal ts)
  /\ (forall e ts, w_final e ts -> bal ts)
  /\ (forall e ts, w_cases e ts -> bal ts)
  /\ (forall e ts, w_case e ts -> bal ts).
Proof.
  apply w_mind; intros;
    repeat match goal with
    | H : w_path _ _ |- _ => apply bal_path in H
    | H : w_end _ _ |- _ => apply bal_end in H
    | H : w_name _ _ |- _ => apply bal_name in H
    | H : w_fun _ _ _ |- _ => apply bal_fun in H
    | H : w_modif _ _ |- _ => apply bal_modif in H
    | H : w_static _ _ |- _ => apply bal_static in H
    | H : w_async _ _ |- _ => apply bal_async in H
    end; balance.
Qed.

Lemma bal_expr : forall e ts, w_expr e ts -> bal ts.
Proof. apply written_bal. Qed.
Lemma bal_elems : forall e ts, w_elems e ts -> bal ts.
Proof. apply written_bal. Qed.

(** ** Phrases that are no arrow function and start with no label *)

Definition calm (ts : list tok) : Prop := ts <> [] /\ forall r,
  (arrow_next r = false -> arrow_start (ts ++ r) = None)
  /\ (starts_with (P ":") r = false -> label (ts ++ r) = None)
  /\ eat (K "yield") (ts ++ r) = None.

Definition quiet_next (us : list tok) : Prop := forall r, arrow_next (us ++ r) = false /\ starts_with (P ":") (us ++ r) = false.

Lemma calm_app : forall ts us, calm ts -> quiet_next us -> calm (ts ++ us).
Proof.
  intros ts us [N C] Q. split; [destruct ts; [congruence|discriminate]|]. intro r. rewrite <- app_assoc. destruct (C (us ++ r)) as (C1 & C2 & C3). destruct (Q r) as [Q1 Q2].
  split; [intros _; exact (C1 Q1)|]. split; [intros _; exact (C2 Q2)|exact C3].
Qed.

Lemma next_tok : forall b e us, same e (P "=>") = false -> same e (P ":") = false -> quiet_next ((b, e) :: us).
Proof. intros b e us H1 H2 r. split; [|exact H2]. cbn [app arrow_next]. rewrite H1. apply andb_false_r. Qed.

Lemma next_assign : forall op b us, is_text assign_ops op = true -> quiet_next ((b, (Punct, op)) :: us).
Proof. intros op b us H. apply is_text_in in H. unfold assign_ops in H. cbn [map In] in H. apply next_tok; listed H. Qed.
Lemma next_rank : forall o q b us, rank o = Some q -> quiet_next ((b, o) :: us).
Proof. intros o q b us H. apply rank_in in H. unfold ranks in H. cbn [In] in H. apply next_tok; (repeat (destruct H as [H|H]; [injection H as <- <-; reflexivity|]); destruct H). Qed.
Lemma next_increments : forall op b us, increments op = true -> quiet_next ((b, (Punct, op)) :: us).
Proof. intros op b us H. apply is_text_in in H. cbn [map In] in H. apply next_tok; listed H. Qed.
Lemma next_dot : forall op b us, is_text ["."; "?."]%string op = true -> quiet_next ((b, (Punct, op)) :: us).
Proof. intros op b us H. apply is_text_in in H. cbn [map In] in H. apply next_tok; listed H. Qed.

Ltac rigid := split; [discriminate|]; intro r0; split; [intros _; reflexivity|]; split; [intros _; reflexivity|reflexivity].

Lemma calm_function : forall f ts, w_function f ts -> calm ts.
Proof. intros f ts H. destruct H as [a g x ps body hs ns ts us H _ _ _]. destruct H; rigid. Qed.
Lemma calm_class : forall c ts, w_class c ts -> calm ts.
Proof. intros c ts H. destruct H. rigid. Qed.

Lemma calm_primary : forall e ts, w_primary e ts -> calm ts.
Proof.
  intros e ts H. destruct H as [x b I|[k s] b I|e ts b c W|l ts b c W|l ts b c W|f ts W|c ts W|x path l ts us b c d f I W V].
  - split; [discriminate|]. intro r. cbn [app]. split; [|split].
    + intro A. unfold arrow_start. rewrite (ident_reserved x "async" I eq_refl). unfold arrow_ahead. change (same (Name, x) (P "(")) with false. cbv iota. rewrite A, andb_false_r. reflexivity.
    + intro A. unfold label. rewrite (eat_none _ _ A). destruct (kind_eqb (fst (Name, x)) Name && binding (snd (Name, x))); reflexivity.
    + apply eat_none. cbn [starts_with snd]. exact (ident_reserved x "yield" I eq_refl).
  - destruct k; try discriminate I; rigid.
  - split; [discriminate|]. intro r. norm. split; [|split; [intros _; reflexivity|reflexivity]].
    intro A. unfold arrow_start, arrow_ahead. change (same (P "(") (P "(")) with true. cbv iota. rewrite (bal_expr e ts W). cbn [after_paren].
    change (same (P ")") (P "(")) with false. change (same (P ")") (P ")")) with true. cbv iota. rewrite A. reflexivity.
  - rigid.
  - rigid.
  - exact (calm_function f ts W).
  - exact (calm_class c ts W).
  - rigid.
Qed.

Lemma calm_left : forall e ts, w_left e ts -> calm ts.
Proof.
  intros e ts H. induction H; [exact (calm_primary e ts H)| | | | | |]; (apply calm_app; [assumption|]).
  - apply next_dot. assumption.
  - apply next_tok; reflexivity.
  - apply next_tok; reflexivity.
  - apply next_tok; reflexivity.
  - apply next_tok; reflexivity.
  - apply next_tok; reflexivity.
Qed.

Lemma calm_post : forall e ts, w_post e ts -> calm ts.
Proof.
  intros e ts H. destruct H; [exact (calm_left e ts H)|apply calm_app; [exact (calm_left e ts H)|apply next_increments; assumption]|rigid].
Qed.

Lemma calm_unary : forall e ts, w_unary e ts -> calm ts.
Proof.
  intros e ts H. induction H as [e ts H|o e ts b H I W IH|e r ts us b H W IH]; [exact (calm_post e ts H)| |].
  - apply prefix_in in H. unfold prefixes in H. cbn [In] in H. repeat (destruct H as [<-|H]; [rigid|]). destruct H.
  - apply calm_app; [exact (calm_post e ts H)|apply next_tok; reflexivity].
Qed.

Lemma calm_bin : forall p e ts, w_bin p e ts -> calm ts.
Proof.
  intros p e ts H. induction H as [p e ts H|p q o l r ts us b K L W IH V _]; [exact (calm_unary e ts H)|].
  apply calm_app; [exact IH|exact (next_rank o q b us K)].
Qed.

Lemma calm_cond : forall e ts, w_cond e ts -> calm ts.
Proof.
  intros e ts H. destruct H as [e ts H|c a b ts us vs f g H V W]; [exact (calm_bin 1 e ts H)|]. apply calm_app; [exact (calm_bin 1 c ts H)|apply next_tok; reflexivity].
Qed.

Lemma unlabelled : forall ts us r, calm ts -> quiet_next us -> label (ts ++ us ++ r) = None.
Proof. intros ts us r [_ C] Q. destruct (C (us ++ r)) as (_ & C2 & _). exact (C2 (proj2 (Q r))). Qed.

Lemma label_arrow : forall a ps hs ts r, w_async a hs -> w_arrow ps ts -> starts_with (P ":") r = false -> label (hs ++ ts ++ r) = None.
Proof.
  intros a ps hs ts r A W H. destruct A; [|reflexivity]. cbn [app]. destruct W as [x b I|ps ts W]; [|destruct W; reflexivity].
  cbn [app]. unfold label. rewrite (eat_none _ _ H). cbn [fst snd kind_eqb andb]. rewrite I. reflexivity.
Qed.

Lemma label_assign : forall e ts r, w_assign e ts -> starts_with (P ":") r = false -> label (ts ++ r) = None.
Proof.
  intros e ts r H S. destruct H as [e ts H|e op x ts us b H T I W|a ps e hs ts us A W L N V|a ps body hs ts us A W L V|e ts b W L|e ts b W].
  - destruct (calm_cond e ts H) as [_ C]. exact (proj1 (proj2 (C r)) S).
  - rewrite <- app_assoc. apply unlabelled; [exact (calm_left e ts H)|apply next_assign, I].
  - norm. apply (label_arrow a ps hs ts _ A W). reflexivity.
  - norm. apply (label_arrow a ps hs ts _ A W). reflexivity.
  - reflexivity.
  - reflexivity.
Qed.

Lemma label_expr : forall e ts r, w_expr e ts -> starts_with (P ":") r = false -> label (ts ++ r) = None.
Proof.
  intros e ts r H S. destruct H as [e ts H|e x ts us b H W]; [exact (label_assign e ts r H S)|]. rewrite <- app_assoc. apply (label_assign e ts _ H). reflexivity.
Qed.

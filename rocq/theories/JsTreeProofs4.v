(** Programs: the parser reads the tree that is written, and the tree does not depend on line ends. *)
From Coq Require Import String Arith List NArith Bool Lia.
From Verif Require Import Base EsSpec JsPlainSpec JsTreeSpec JsTreeProofs1 JsTreeProofs6 JsTreeProofs2 JsTreeProofs3.
Import ListNotations.
Open Scope N_scope.

(** ** The parser reads what is written *)

Lemma written_read : (forall e ts, w_expr e ts -> R_expr e ts)
  /\ (forall e ts, w_assign e ts -> R_assign e ts)
  /\ (forall e ts, w_arrow e ts -> R_arrow e ts)
  /\ (forall e ts, w_cond e ts -> R_cond e ts)
  /\ (forall b e ts, w_bin b e ts -> R_bin b e ts)
  /\ (forall e ts, w_unary e ts -> R_unary e ts)
  /\ (forall e ts, w_post e ts -> R_post e ts)
  /\ (forall e ts, w_left e ts -> R_left e ts)
  /\ (forall e ts, w_primary e ts -> R_primary e ts)
  /\ (forall e ts, w_list e ts -> R_list e ts)
  /\ (forall e ts, w_list1 e ts -> R_list1 e ts)
  /\ (forall e ts, w_item e ts -> R_item e ts)
  /\ (forall e ts, w_props e ts -> R_props e ts)
  /\ (forall e ts, w_props1 e ts -> R_props1 e ts)
  /\ (forall e ts, w_prop e ts -> R_prop e ts)
  /\ (forall e ts, w_key e ts -> R_key e ts)
  /\ (forall e ts, w_function e ts -> R_function e ts)
  /\ (forall e ts, w_class e ts -> R_class e ts)
  /\ (forall e ts, w_ext e ts -> R_ext e ts)
  /\ (forall e ts, w_members e ts -> R_members e ts)
  /\ (forall b e ts, w_member b e ts -> R_member b e ts)
  /\ (forall e ts, w_params e ts -> R_params e ts)
  /\ (forall e ts, w_elems e ts -> R_elems e ts)
  /\ (forall e ts, w_elems1 e ts -> R_elems1 e ts)
  /\ (forall e ts, w_elem e ts -> R_elem e ts)
  /\ (forall e ts, w_pat e ts -> R_pat e ts)
  /\ (forall e ts, w_fields e ts -> R_fields e ts)
  /\ (forall e ts, w_fields1 e ts -> R_fields1 e ts)
  /\ (forall e ts, w_field e ts -> R_field e ts)
  /\ (forall e ts, w_body e ts -> R_body e ts)
  /\ (forall b e ts, w_stmts b e ts -> R_stmts b e ts)
  /\ (forall b e ts, w_stmts1 b e ts -> R_stmts1 b e ts)
  /\ (forall b e ts, w_stmt b e ts -> R_stmt b e ts)
  /\ (forall e ts, w_decls e ts -> R_decls e ts)
  /\ (forall e ts, w_decl e ts -> R_decl e ts)
  /\ (forall e ts, w_init e ts -> R_init e ts)
  /\ (forall e ts, w_opt e ts -> R_opt e ts)
  /\ (forall e ts, w_handler e ts -> R_handler e ts)
  /\ (forall e ts, w_final e ts -> R_final e ts)
  /\ (forall e ts, w_cases e ts -> R_cases e ts)
  /\ (forall e ts, w_case e ts -> R_case e ts).
Proof.
  apply w_mind; intros.
  - apply r_we_one; assumption.
  - apply r_we_comma; assumption.
  - apply r_wa_cond; assumption.
  - apply r_wa_assign; assumption.
  - apply r_wa_arrow; assumption.
  - apply r_wa_arrow_body; assumption.
  - apply r_wa_yield; assumption.
  - apply r_wa_yield_all; assumption.
  - apply r_war_name; assumption.
  - apply r_war_params; assumption.
  - apply r_wc_bin; assumption.
  - apply r_wc_if; assumption.
  - apply r_wb_unary; assumption.
  - eapply r_wb_op; eassumption.
  - apply r_wu_post; assumption.
  - apply r_wu_pre; assumption.
  - apply r_wu_pow; assumption.
  - apply r_wp_left; assumption.
  - apply r_wp_post; assumption.
  - apply r_wp_new; assumption.
  - apply r_wl_primary; assumption.
  - apply r_wl_member; assumption.
  - apply r_wl_index; assumption.
  - apply r_wl_call; assumption.
  - apply r_wl_opt_index; assumption.
  - apply r_wl_opt_call; assumption.
  - apply r_wl_tag; assumption.
  - apply r_wr_word; assumption.
  - apply r_wr_lit; assumption.
  - apply r_wr_paren; assumption.
  - apply r_wr_array; assumption.
  - apply r_wr_object; assumption.
  - apply r_wr_fun; assumption.
  - apply r_wr_class; assumption.
  - apply r_wr_new; assumption.
  - apply r_wi_none; assumption.
  - apply r_wi_some; assumption.
  - apply r_wi_one; assumption.
  - apply r_wi_cons; assumption.
  - apply r_wi_assign; assumption.
  - apply r_wi_spread; assumption.
  - apply r_wo_none; assumption.
  - apply r_wo_some; assumption.
  - apply r_wo_one; assumption.
  - apply r_wo_cons; assumption.
  - apply r_wo_key; assumption.
  - apply r_wo_short; assumption.
  - apply r_wo_spread; assumption.
  - apply r_wo_method; assumption.
  - apply r_wke_name; assumption.
  - apply r_wke_expr; assumption.
  - apply r_wfu; assumption.
  - apply r_wcl; assumption.
  - apply r_wex_none; assumption.
  - apply r_wex_some; assumption.
  - apply r_wg_none; assumption.
  - apply r_wg_one; assumption.
  - apply r_wg_cons; assumption.
  - apply r_wg_empty; assumption.
  - apply r_wg_method; assumption.
  - apply r_wg_field; assumption.
  - apply r_wg_value; assumption.
  - apply r_wq; assumption.
  - apply r_wj_none; assumption.
  - apply r_wj_some; assumption.
  - apply r_wj_one; assumption.
  - apply r_wj_rest; assumption.
  - apply r_wj_cons; assumption.
  - apply r_wel_pat; assumption.
  - apply r_wel_default; assumption.
  - apply r_wpa_name; assumption.
  - apply r_wpa_array; assumption.
  - apply r_wpa_object; assumption.
  - apply r_wfi_none; assumption.
  - apply r_wfi_some; assumption.
  - apply r_wfi_one; assumption.
  - apply r_wfi_cons; assumption.
  - apply r_wfi_short; assumption.
  - apply r_wfi_default; assumption.
  - apply r_wfi_key; assumption.
  - apply r_wfi_rest; assumption.
  - apply r_wd_body; assumption.
  - apply r_ws_none; assumption.
  - apply r_ws_some; assumption.
  - apply r_ws_one; assumption.
  - apply r_ws_cons; assumption.
  - apply r_wt_empty; assumption.
  - apply r_wt_expr; assumption.
  - apply r_wt_var; assumption.
  - apply r_wt_block; assumption.
  - apply r_wt_if; assumption.
  - apply r_wt_else; assumption.
  - apply r_wt_while; assumption.
  - apply r_wt_do; assumption.
  - apply r_wt_for; assumption.
  - apply r_wt_for_in; assumption.
  - apply r_wt_for_var; assumption.
  - apply r_wt_return_none; assumption.
  - apply r_wt_return; assumption.
  - apply r_wt_throw; assumption.
  - apply r_wt_jump; assumption.
  - apply r_wt_jump_label; assumption.
  - apply r_wt_try; assumption.
  - apply r_wt_switch; assumption.
  - apply r_wt_fun; assumption.
  - apply r_wt_class; assumption.
  - apply r_wt_label; assumption.
  - apply r_wv_one; assumption.
  - apply r_wv_cons; assumption.
  - apply r_wv_name; assumption.
  - apply r_wv_value; assumption.
  - apply r_wz_none; assumption.
  - apply r_wz_expr; assumption.
  - apply r_wz_var; assumption.
  - apply r_wx_none; assumption.
  - apply r_wx_some; assumption.
  - apply r_wh_none; assumption.
  - apply r_wh_catch; assumption.
  - apply r_wh_name; assumption.
  - apply r_wf_none; assumption.
  - apply r_wf_some; assumption.
  - apply r_wy_none; assumption.
  - apply r_wy_last; assumption.
  - apply r_wy_cons; assumption.
  - apply r_wy_default; assumption.
  - apply r_wy_case; assumption.
Qed.

Theorem program_read : forall t ts n, program t ts -> (10 * length ts + 12 <= n)%nat -> p_stmts n ts = Some (t, []).
Proof.
  intros t ts n H L. assert (A : R_stmts true t ts) by (apply written_read, H). specialize (A n [] L eq_refl (fun _ => eq_refl)). rewrite app_nil_r in A. exact A.
Qed.

Corollary program_parse : forall t ts, program t ts -> parse ts = Some t.
Proof. intros t ts H. unfold parse. rewrite (program_read t ts _ H) by lia. reflexivity. Qed.

(** ** Without line ends *)

Definition flat (ts : list tok) : list tok := map (fun t => (false, snd t)) ts.

Lemma flat_app : forall a b, flat (a ++ b) = flat a ++ flat b.
Proof. intros. apply map_app. Qed.

Lemma flat_cons : forall t a, flat (t :: a) = (false, snd t) :: flat a.
Proof. reflexivity. Qed.

Lemma flat_starts : forall e ts, starts_with e (flat ts) = starts_with e ts.
Proof. intros e [|t ts]; reflexivity. Qed.

Lemma flat_opening : forall ts, opening (flat ts) = opening ts.
Proof. intros [|t [|u ts]]; reflexivity. Qed.

Lemma flat_no_in : forall ts, no_in (flat ts) = no_in ts.
Proof. unfold no_in. induction ts as [|t ts IH]; [reflexivity|]. cbn [flat map forallb snd]. rewrite <- IH. reflexivity. Qed.

Lemma flat_line : forall ts, same_line (flat ts) = true.
Proof. intros [|t ts]; reflexivity. Qed.

Lemma flat_hd : forall ts, snd (hd (false, P "") (flat ts)) = snd (hd (false, P "") ts).
Proof. intros [|t ts]; reflexivity. Qed.

Lemma flat_nil : forall ts, ts <> [] -> flat ts <> [].
Proof. intros [|t ts] H; [congruence|discriminate]. Qed.

Lemma flat_async : forall ts, async_fun (flat ts) = async_fun ts.
Proof. intros [|t [|u ts]]; reflexivity. Qed.

Lemma flat_w_name : forall x ts, w_name x ts -> w_name x (flat ts).
Proof. intros x ts H. destruct H; constructor; assumption. Qed.

Lemma flat_w_fun : forall a g ts, w_fun a g ts -> w_fun a g (flat ts).
Proof. intros a g ts H. destruct H; constructor. Qed.

Lemma flat_w_modif : forall h ts, w_modif h ts -> w_modif h (flat ts).
Proof. intros h ts H. destruct H; constructor; assumption. Qed.

Lemma flat_w_static : forall a ts, w_static a ts -> w_static a (flat ts).
Proof. intros a ts H. destruct H; constructor. Qed.

Lemma flat_w_async : forall a ts, w_async a ts -> w_async a (flat ts).
Proof. intros a ts H. destruct H; constructor. Qed.

Lemma flat_line_ok : forall h ts, line_ok h (flat ts) = true.
Proof. intros h ts. destruct h; try reflexivity. apply flat_line. Qed.

Lemma flat_line_or : forall a ts, negb a || same_line (flat ts) = true.
Proof. intros a ts. rewrite flat_line. apply orb_true_r. Qed.

Lemma flat_path : forall l ts, w_path l ts -> w_path l (flat ts).
Proof. intros l ts H. induction H; rewrite ?flat_cons; constructor; assumption. Qed.

Lemma flat_end : forall b ts, w_end b ts -> w_end b (flat ts).
Proof. intros l ts H. destruct H; rewrite ?flat_cons; constructor. Qed.

Ltac flatten := repeat (progress (rewrite ?flat_app, ?flat_cons in *; cbn [snd] in *)).
Ltac side :=
  first [ assumption
        | rewrite flat_starts; assumption | rewrite flat_opening; assumption | rewrite flat_no_in; assumption
        | apply flat_line | rewrite flat_hd; assumption
        | apply flat_w_name; assumption | apply flat_w_fun; assumption | apply flat_w_modif; assumption | apply flat_w_static; assumption
        | apply flat_w_async; assumption | apply flat_line_ok | apply flat_line_or | rewrite flat_async; assumption
        | apply flat_path; assumption | apply flat_end; assumption
        | rewrite <- flat_app; apply flat_nil; assumption | eassumption ].

Lemma written_flat : (forall e ts, w_expr e ts -> w_expr e (flat ts))
  /\ (forall e ts, w_assign e ts -> w_assign e (flat ts))
  /\ (forall e ts, w_arrow e ts -> w_arrow e (flat ts))
  /\ (forall e ts, w_cond e ts -> w_cond e (flat ts))
  /\ (forall b e ts, w_bin b e ts -> w_bin b e (flat ts))
  /\ (forall e ts, w_unary e ts -> w_unary e (flat ts))
  /\ (forall e ts, w_post e ts -> w_post e (flat ts))
  /\ (forall e ts, w_left e ts -> w_left e (flat ts))
  /\ (forall e ts, w_primary e ts -> w_primary e (flat ts))
  /\ (forall e ts, w_list e ts -> w_list e (flat ts))
  /\ (forall e ts, w_list1 e ts -> w_list1 e (flat ts))
  /\ (forall e ts, w_item e ts -> w_item e (flat ts))
  /\ (forall e ts, w_props e ts -> w_props e (flat ts))
  /\ (forall e ts, w_props1 e ts -> w_props1 e (flat ts))
  /\ (forall e ts, w_prop e ts -> w_prop e (flat ts))
  /\ (forall e ts, w_key e ts -> w_key e (flat ts))
  /\ (forall e ts, w_function e ts -> w_function e (flat ts))
  /\ (forall e ts, w_class e ts -> w_class e (flat ts))
  /\ (forall e ts, w_ext e ts -> w_ext e (flat ts))
  /\ (forall e ts, w_members e ts -> w_members e (flat ts))
  /\ (forall b e ts, w_member b e ts -> w_member b e (flat ts))
  /\ (forall e ts, w_params e ts -> w_params e (flat ts))
  /\ (forall e ts, w_elems e ts -> w_elems e (flat ts))
  /\ (forall e ts, w_elems1 e ts -> w_elems1 e (flat ts))
  /\ (forall e ts, w_elem e ts -> w_elem e (flat ts))
  /\ (forall e ts, w_pat e ts -> w_pat e (flat ts))
  /\ (forall e ts, w_fields e ts -> w_fields e (flat ts))
  /\ (forall e ts, w_fields1 e ts -> w_fields1 e (flat ts))
  /\ (forall e ts, w_field e ts -> w_field e (flat ts))
  /\ (forall e ts, w_body e ts -> w_body e (flat ts))
  /\ (forall b e ts, w_stmts b e ts -> w_stmts b e (flat ts))
  /\ (forall b e ts, w_stmts1 b e ts -> w_stmts1 b e (flat ts))
  /\ (forall b e ts, w_stmt b e ts -> w_stmt b e (flat ts))
  /\ (forall e ts, w_decls e ts -> w_decls e (flat ts))
  /\ (forall e ts, w_decl e ts -> w_decl e (flat ts))
  /\ (forall e ts, w_init e ts -> w_init e (flat ts))
  /\ (forall e ts, w_opt e ts -> w_opt e (flat ts))
  /\ (forall e ts, w_handler e ts -> w_handler e (flat ts))
  /\ (forall e ts, w_final e ts -> w_final e (flat ts))
  /\ (forall e ts, w_cases e ts -> w_cases e (flat ts))
  /\ (forall e ts, w_case e ts -> w_case e (flat ts)).
Proof.
  apply w_mind; intros; flatten.
  - eapply we_one; side.
  - eapply we_comma; side.
  - eapply wa_cond; side.
  - eapply wa_assign; side.
  - eapply wa_arrow; side.
  - eapply wa_arrow_body; side.
  - eapply wa_yield; side.
  - eapply wa_yield_all; side.
  - eapply war_name; side.
  - eapply war_params; side.
  - eapply wc_bin; side.
  - eapply wc_if; side.
  - eapply wb_unary; side.
  - eapply wb_op; side.
  - eapply wu_post; side.
  - eapply wu_pre; side.
  - eapply wu_pow; side.
  - eapply wp_left; side.
  - eapply wp_post; side.
  - eapply wp_new; side.
  - eapply wl_primary; side.
  - eapply wl_member; side.
  - eapply wl_index; side.
  - eapply wl_call; side.
  - eapply wl_opt_index; side.
  - eapply wl_opt_call; side.
  - eapply wl_tag; side.
  - eapply wr_word; side.
  - eapply wr_lit; side.
  - eapply wr_paren; side.
  - eapply wr_array; side.
  - eapply wr_object; side.
  - eapply wr_fun; side.
  - eapply wr_class; side.
  - eapply wr_new; side.
  - eapply wi_none; side.
  - eapply wi_some; side.
  - eapply wi_one; side.
  - eapply wi_cons; side.
  - eapply wi_assign; side.
  - eapply wi_spread; side.
  - eapply wo_none; side.
  - eapply wo_some; side.
  - eapply wo_one; side.
  - eapply wo_cons; side.
  - eapply wo_key; side.
  - eapply wo_short; side.
  - eapply wo_spread; side.
  - eapply wo_method; side.
  - eapply wke_name; side.
  - eapply wke_expr; side.
  - eapply wfu; side.
  - eapply wcl; side.
  - eapply wex_none; side.
  - eapply wex_some; side.
  - eapply wg_none; side.
  - eapply wg_one; side.
  - eapply wg_cons; side.
  - eapply wg_empty; side.
  - eapply wg_method; side.
  - eapply wg_field; side.
  - eapply wg_value; side.
  - eapply wq; side.
  - eapply wj_none; side.
  - eapply wj_some; side.
  - eapply wj_one; side.
  - eapply wj_rest; side.
  - eapply wj_cons; side.
  - eapply wel_pat; side.
  - eapply wel_default; side.
  - eapply wpa_name; side.
  - eapply wpa_array; side.
  - eapply wpa_object; side.
  - eapply wfi_none; side.
  - eapply wfi_some; side.
  - eapply wfi_one; side.
  - eapply wfi_cons; side.
  - eapply wfi_short; side.
  - eapply wfi_default; side.
  - eapply wfi_key; side.
  - eapply wfi_rest; side.
  - eapply wd_body; side.
  - eapply ws_none; side.
  - eapply ws_some; side.
  - eapply ws_one; side.
  - eapply ws_cons; side.
  - eapply wt_empty; side.
  - eapply wt_expr; side.
  - eapply wt_var; side.
  - eapply wt_block; side.
  - eapply wt_if; side.
  - eapply wt_else; side.
  - eapply wt_while; side.
  - eapply wt_do; side.
  - eapply wt_for; side.
  - eapply wt_for_in; side.
  - eapply wt_for_var; side.
  - eapply wt_return_none; side.
  - eapply wt_return; side.
  - eapply wt_throw; side.
  - eapply wt_jump; side.
  - eapply wt_jump_label; side.
  - eapply wt_try; side.
  - eapply wt_switch; side.
  - eapply wt_fun; side.
  - eapply wt_class; side.
  - eapply wt_label; side.
  - eapply wv_one; side.
  - eapply wv_cons; side.
  - eapply wv_name; side.
  - eapply wv_value; side.
  - eapply wz_none; side.
  - eapply wz_expr; side.
  - eapply wz_var; side.
  - eapply wx_none; side.
  - eapply wx_some; side.
  - eapply wh_none; side.
  - eapply wh_catch; side.
  - eapply wh_name; side.
  - eapply wf_none; side.
  - eapply wf_some; side.
  - eapply wy_none; side.
  - eapply wy_last; side.
  - eapply wy_cons; side.
  - eapply wy_default; side.
  - eapply wy_case; side.
Qed.

Theorem program_flat : forall t ts, program t ts -> program t (flat ts).
Proof. intros t ts H. apply written_flat, H. Qed.

(** ** Empty statements at the beginning *)

Fixpoint skip (ts : list tok) : list tok :=
  match ts with t :: r => if same (snd t) (P ";") then skip r else ts | [] => [] end.

Lemma first_semicolon : forall last s ts, w_stmt last s ts -> starts_with (P ";") ts = true -> s = SEmpty /\ length ts = 1%nat.
Proof.
  intros last s ts H S. destruct H; try discriminate S.
  - split; reflexivity.
  - exfalso. destruct ts as [|t ts]; [discriminate H0|]. cbn [app starts_with] in S. apply same_eq in S. unfold opening in H0. rewrite S in H0. discriminate H0.
  - exfalso. destruct H. discriminate S.
  - exfalso. destruct (function_first _ _ H) as [(b & us & ->)|(b & us & ->)]; discriminate S.
  - exfalso. destruct (class_first _ _ H) as (b & us & ->). discriminate S.
Qed.

Lemma first_empty : forall last ts, w_stmt last SEmpty ts -> starts_with (P ";") ts = true.
Proof. intros last ts H. remember SEmpty as s. destruct H; try discriminate Heqs. reflexivity. Qed.

Lemma stmt_nonempty : forall last s ts, w_stmt last s ts -> ts <> [].
Proof.
  intros last s ts H. assert (A : R_stmt last s ts) by (apply written_read, H). destruct A as [A _]. destruct ts; [destruct A|discriminate].
Qed.

Lemma program_skip : forall t ts, program t ts -> program (drop_empty t) (skip ts).
Proof.
  unfold program. intros t. induction t as [|s t IH]; intros ts H.
  - inversion H as [|? ? ? H1]; subst; [constructor|]. inversion H1.
  - inversion H as [|? ? ? H1]; subst.
    assert (C : exists us vs, ts = us ++ vs /\ w_stmt (match t with [] => true | _ => false end) s us /\ w_stmts true t vs).
    { inversion H1; subst; [exists ts, []; rewrite app_nil_r; repeat split; [assumption|constructor]|].
      exists ts0, us. split; [reflexivity|]. split; [|apply ws_some; assumption]. destruct t; [|assumption]. inversion H6. }
    destruct C as (us & vs & -> & A & B). destruct (starts_with (P ";") us) eqn:S.
    + destruct (first_semicolon _ _ _ A S) as [-> L]. destruct us as [|x [|y us]]; try discriminate L. cbn [starts_with] in S. cbn [drop_empty app skip]. rewrite S. exact (IH vs B).
    + assert (D : drop_empty (s :: t) = s :: t) by (destruct s; try reflexivity; rewrite (first_empty _ _ A) in S; discriminate S).
      rewrite D. assert (E : skip (us ++ vs) = us ++ vs); [|rewrite E; exact H].
      pose proof (stmt_nonempty _ _ _ A) as N. destruct us as [|x us]; [congruence|]. cbn [starts_with] in S. cbn [app skip]. rewrite S. reflexivity.
Qed.

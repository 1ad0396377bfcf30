(** The grammar, and literals replaced by names or elements of an array: the tree is the one with the literals replaced. *)
From Coq Require Import String Arith List NArith Bool Lia.
From Verif Require Import Base EsSpec JsPlainSpec JsTreeSpec JsTreeProofs1 JsTreeProofs6 JsTreeProofs4 JsAggTreeSpec.
Import ListNotations.
Open Scope N_scope.

Section Ren.
(** The expression for a literal, and its tokens: a name, perhaps more behind it. *)
Variable f : element -> option expr.
Variable h : element -> list element.
Variable g : element -> bool.
Hypothesis h_none : forall e, f e = None -> h e = [e].
Hypothesis h_some : forall e x, f e = Some x -> quoted e = true /\ exists y r, h e = (Name, y) :: r /\ ident y = true
  /\ forallb (fun a => negb (named ["in"; "of"]%string a)) r = true /\ forall b, w_left x ((b, (Name, y)) :: map (pair false) r).
Hypothesis g_kept : forall e, g e = true -> f e = None.

Definition ren (t : tok) : list tok := match h (snd t) with [] => [] | e :: r => (fst t, e) :: map (pair false) r end.
Definition rens (ts : list tok) : list tok := flat_map ren ts.

Lemma f_quoted : forall e x, f e = Some x -> quoted e = true.
Proof. intros e x H. exact (proj1 (h_some e x H)). Qed.

Lemma ident_no_text : forall l y, ident y = true -> forallb (fun w => existsb (String.eqb w) reserved) l = true -> is_text l y = false.
Proof.
  intros l y I H. unfold ident, is_text in *. apply negb_true_iff in I. apply not_true_iff_false. intro E. apply existsb_exists in E. destruct E as (w & J & E).
  apply in_map_iff in J. destruct J as (v & <- & J). rewrite forallb_forall in H. specialize (H v J). apply existsb_exists in H. destruct H as (u & K1 & K2). apply String.eqb_eq in K2. subst u.
  apply not_true_iff_false in I. apply I. apply existsb_exists. exists (S_ v). split; [now apply in_map|exact E].
Qed.

Lemma ren_none : forall b e, f e = None -> ren (b, e) = [(b, e)].
Proof. intros b e H. unfold ren. cbn [fst snd]. rewrite (h_none e H). reflexivity. Qed.

Lemma ren_kept : forall b e, g e = true -> ren (b, e) = [(b, e)].
Proof. intros b e H. apply ren_none, g_kept, H. Qed.

Lemma ren_plain : forall b e, quoted e = false -> ren (b, e) = [(b, e)].
Proof. intros b e H. apply ren_none. destruct (f e) as [x|] eqn:E; [|reflexivity]. rewrite (f_quoted e x E) in H. discriminate H. Qed.

Lemma ren_name : forall b x, ren (b, (Name, x)) = [(b, (Name, x))].
Proof. intros b x. apply ren_plain. reflexivity. Qed.
Lemma ren_punct : forall b x, ren (b, (Punct, x)) = [(b, (Punct, x))].
Proof. intros b x. apply ren_plain. reflexivity. Qed.
Lemma ren_P : forall b x, ren (b, P x) = [(b, P x)].
Proof. intros b x. apply ren_plain. reflexivity. Qed.
Lemma ren_K : forall b x, ren (b, K x) = [(b, K x)].
Proof. intros b x. apply ren_plain. reflexivity. Qed.

Lemma same_quoted : forall a b, same a b = true -> quoted b = false -> quoted a = false.
Proof. intros [k s] [k' s'] H Q. unfold same in H. cbn [fst snd] in H. apply andb_true_iff in H. destruct H as [A _]. unfold quoted in *. cbn [fst] in *. destruct k, k'; try reflexivity; try discriminate. Qed.

Lemma ren_rank : forall b o q, rank o = Some q -> ren (b, o) = [(b, o)].
Proof.
  intros b o q H. apply ren_plain. unfold rank in H. destruct (find (fun p => same o (fst p)) ranks) as [p|] eqn:F; [|discriminate H].
  apply find_some in F. destruct F as [I S]. apply (same_quoted o (fst p) S).
  assert (A : forallb (fun p => negb (quoted (fst p))) ranks = true) by reflexivity. rewrite forallb_forall in A. specialize (A p I). now apply negb_true_iff in A.
Qed.

Lemma ren_prefix : forall b o, prefix o = true -> ren (b, o) = [(b, o)].
Proof.
  intros b o H. apply ren_plain. unfold prefix in H. apply existsb_exists in H. destruct H as (p & I & S). apply (same_quoted o p S).
  assert (A : forallb (fun p => negb (quoted p)) prefixes = true) by reflexivity. rewrite forallb_forall in A. specialize (A p I). now apply negb_true_iff in A.
Qed.

Lemma ren_member : forall b o, member_name o = true -> ren (b, o) = [(b, o)].
Proof. intros b o H. apply ren_plain. unfold member_name, quoted in *. destruct (fst o); (reflexivity || discriminate H). Qed.

Lemma ren_lit : forall e b, literal e = true -> w_left (match f e with Some x => x | None => ELit e end) (ren (b, e)).
Proof.
  intros e b H. destruct (f e) as [x|] eqn:E.
  - destruct (h_some e x E) as (_ & y & r & Y & _ & _ & W). unfold ren. cbn [fst snd]. rewrite Y. apply W.
  - rewrite (ren_none b e E). apply wl_primary, wr_lit, H.
Qed.

(** ** What the grammar asks of tokens *)

(** The first token: the same, or a name for a literal. *)
Lemma ren_first : forall t, exists e r, ren t = (fst t, e) :: r /\ (e = snd t /\ r = [] \/ quoted (snd t) = true /\ exists y, e = (Name, y) /\ ident y = true
  /\ forallb (fun a : tok => negb (named ["in"; "of"]%string (snd a))) r = true).
Proof.
  intros [b e]. cbn [fst snd]. destruct (f e) as [x|] eqn:E.
  - destruct (h_some e x E) as (Q & y & r & Y & I & N & _). exists (Name, y), (map (pair false) r). unfold ren. cbn [fst snd]. rewrite Y. split; [reflexivity|]. right. split; [exact Q|].
    exists y. split; [reflexivity|]. split; [exact I|]. clear - N. induction r as [|a r IH]; [reflexivity|]. cbn [map forallb snd] in *. apply andb_true_iff in N. destruct N as [-> N]. exact (IH N).
  - exists e, []. rewrite (ren_none b e E). auto.
Qed.

Lemma name_same : forall y e b, quoted e = true -> ident y = true -> quoted b = false -> (kind_eqb (fst b) Name && negb (is_text reserved (snd b))) = false -> same (Name, y) b = same e b.
Proof.
  intros y e [k s] Q I Qb N. unfold same, quoted, ident in *. cbn [fst snd] in *. destruct e as [k' s']. cbn [fst snd] in *.
  destruct k', k; try discriminate; try reflexivity; cbn [kind_eqb andb] in *; apply not_true_iff_false; intro X; apply str_eqb_eq in X; subst s; rewrite I in N; discriminate N.
Qed.

Lemma name_named : forall l y e, quoted e = true -> ident y = true -> forallb (fun w => existsb (String.eqb w) reserved) l = true -> named l (Name, y) = named l e.
Proof.
  intros l y e Q I H. unfold named. cbn [fst snd]. rewrite (ident_no_text l y I H). unfold quoted in Q. destruct (fst e); try discriminate Q; reflexivity.
Qed.

Lemma name_sign : forall l y e, quoted e = true -> sign l (Name, y) = sign l e.
Proof. intros l y e Q. unfold sign, quoted in *. cbn [fst snd]. destruct (fst e); try discriminate Q; reflexivity. Qed.

Lemma rens_app : forall a b, rens (a ++ b) = rens a ++ rens b.
Proof. intros. apply flat_map_app. Qed.
Lemma rens_cons : forall t a, rens (t :: a) = ren t ++ rens a.
Proof. reflexivity. Qed.
Lemma rens_nil : rens [] = [].
Proof. reflexivity. Qed.

Lemma rens_starts : forall ts, starts_with (P "{") (rens ts) = starts_with (P "{") ts.
Proof.
  intros [|t ts]; [reflexivity|]. rewrite rens_cons. destruct (ren_first t) as (e & r & -> & [[-> _]|(Q & y & -> & I & _)]); cbn [app starts_with snd]; [reflexivity|].
  now apply name_same.
Qed.

Lemma async_cons : forall t r, async_fun (t :: r) = same (snd t) (K "async") && match r with u :: _ => same (snd u) (K "function") | [] => true end.
Proof. intros t [|u r]; reflexivity. Qed.

Lemma rens_async : forall ts, async_fun (rens ts) = async_fun ts.
Proof.
  intros [|t ts]; [reflexivity|]. rewrite rens_cons, (async_cons t). destruct (ren_first t) as (e & r & -> & [[-> ->]|(Q & y & -> & I & _)]); cbn [app]; rewrite async_cons; cbn [snd].
  - destruct (same (snd t) (K "async")); [|reflexivity]. cbn [andb]. destruct ts as [|u ts]; [reflexivity|]. rewrite rens_cons.
    destruct (ren_first u) as (e & r & -> & [[-> _]|(Q & y & -> & I & _)]); cbn [app snd]; [reflexivity|]. now apply name_same.
  - rewrite <- (name_same y (snd t) (K "async") Q I eq_refl eq_refl). replace (same (Name, y) (K "async")) with false; [reflexivity|].
    symmetry. rewrite (name_same y (snd t)) by (assumption || reflexivity). apply not_true_iff_false. intro S. apply same_quoted in S; [|reflexivity]. rewrite Q in S. discriminate S.
Qed.

Lemma rens_opening : forall ts, opening (rens ts) = opening ts.
Proof.
  intros ts. assert (A := rens_async ts). destruct ts as [|t ts]; [reflexivity|]. rewrite rens_cons in *. destruct (ren_first t) as (e & r & E & [[-> ->]|(Q & y & -> & I & _)]); rewrite E in *; cbn [app] in *; unfold opening; rewrite A; cbn [snd].
  - reflexivity.
  - rewrite (name_sign _ y (snd t) Q), (name_named _ y (snd t)) by (assumption || reflexivity). reflexivity.
Qed.

Lemma rens_no_in : forall ts, no_in (rens ts) = no_in ts.
Proof.
  unfold no_in. induction ts as [|t ts IH]; [reflexivity|]. rewrite rens_cons, forallb_app. etransitivity; [apply f_equal2; [reflexivity|exact IH]|]. cbn [forallb]. f_equal. destruct (ren_first t) as (e & r & -> & [[-> ->]|(Q & y & -> & I & N)]); cbn [forallb snd].
  - rewrite andb_true_r. reflexivity.
  - etransitivity; [apply f_equal2; [reflexivity|exact N]|]. rewrite andb_true_r, (name_named _ y (snd t)) by (assumption || reflexivity). reflexivity.
Qed.

Lemma rens_line : forall ts, same_line (rens ts) = same_line ts.
Proof. intros [|t ts]; [reflexivity|]. rewrite rens_cons. destruct (ren_first t) as (e & r & -> & _). reflexivity. Qed.

Lemma rens_line_ok : forall h ts, line_ok h (rens ts) = line_ok h ts.
Proof. intros k ts. destruct k; try reflexivity. apply rens_line. Qed.

Lemma rens_hd : forall ts, named kinds (snd (hd (false, P "") (rens ts))) = named kinds (snd (hd (false, P "") ts)).
Proof.
  intros [|t ts]; [reflexivity|]. rewrite rens_cons. destruct (ren_first t) as (e & r & -> & [[-> _]|(Q & y & -> & I & _)]); cbn [app hd snd]; [reflexivity|].
  now apply name_named.
Qed.

Lemma rens_some : forall ts, ts <> [] -> rens ts <> [].
Proof. intros [|t ts] H; [congruence|]. rewrite rens_cons. destruct (ren_first t) as (e & r & -> & _). discriminate. Qed.

Lemma map_some : forall (A B : Type) (h : A -> B) l, l <> [] -> map h l <> [].
Proof. intros A B k [|t ts] H; [congruence|discriminate]. Qed.

Lemma rens_name : forall x ts, w_name x ts -> w_name x (rens ts).
Proof. intros x ts H. destruct H; repeat (rewrite rens_cons || rewrite rens_nil); rewrite ?ren_name; cbn [app]; constructor; assumption. Qed.
Lemma rens_fun : forall a b ts, w_fun a b ts -> w_fun a b (rens ts).
Proof. intros a b ts H. destruct H; repeat (rewrite rens_cons || rewrite rens_nil); rewrite ?ren_K, ?ren_P; cbn [app]; constructor. Qed.
Lemma rens_modif : forall h ts, w_modif h ts -> w_modif h (rens ts).
Proof. intros k ts H. destruct H; repeat (rewrite rens_cons || rewrite rens_nil); rewrite ?ren_K, ?ren_P, ?ren_name; cbn [app]; constructor; assumption. Qed.
Lemma rens_static : forall a ts, w_static a ts -> w_static a (rens ts).
Proof. intros a ts H. destruct H; repeat (rewrite rens_cons || rewrite rens_nil); rewrite ?ren_K; cbn [app]; constructor. Qed.
Lemma rens_w_async : forall a ts, w_async a ts -> w_async a (rens ts).
Proof. intros a ts H. destruct H; repeat (rewrite rens_cons || rewrite rens_nil); rewrite ?ren_K; cbn [app]; constructor. Qed.
Lemma rens_path : forall l ts, w_path l ts -> w_path l (rens ts).
Proof. intros l ts H. induction H; rewrite ?rens_cons; rewrite ?ren_P, ?ren_name; cbn [app]; constructor; assumption. Qed.
Lemma rens_end : forall b ts, w_end b ts -> w_end b (rens ts).
Proof. intros l ts H. destruct H; rewrite ?rens_cons; rewrite ?ren_P; cbn [app]; constructor. Qed.

(** ** What the grammar asks of trees *)

Lemma sw_target : forall e, target e = true -> target (sw_e f e) = true.
Proof. intros [] H; try discriminate H; exact H. Qed.

Lemma sw_assignable : forall op e, assignable op e = true -> assignable op (sw_e f e) = true.
Proof.
  intros op e H. unfold assignable in *. apply orb_true_iff in H. destruct H as [H|H]; [rewrite (sw_target e H); reflexivity|].
  apply orb_true_iff. right. apply andb_true_iff in H. destruct H as [A B]. rewrite A. destruct e; try discriminate B; reflexivity.
Qed.

Lemma sw_increments : forall op e, increments op && negb (target e) = false -> increments op && negb (target (sw_e f e)) = false.
Proof.
  intros op e H. destruct (increments op); [|reflexivity]. cbn [andb] in *. apply negb_false_iff in H. rewrite (sw_target e H). reflexivity.
Qed.

Fixpoint sw_closed (s : stmt) : closed (sw_s f s) = closed s.
Proof. destruct s as [| | | |c s [r|]| | | | | | | | | | | |]; try reflexivity; cbn [sw_s closed]; apply sw_closed. Qed.

Ltac swsimpl :=
  cbn [sw_e sw_o sw_k sw_f sw_c sw_m sw_p sw_s sw_i map ok_e ok_o ok_k ok_f ok_c ok_m ok_p ok_s ok_i forallb] in *;
  repeat match goal with
         | H : ?a = true -> _, H' : ?a = true |- _ => specialize (H H')
         | H : true = true -> _ |- _ => specialize (H eq_refl)
         end;
  repeat match goal with
         | H : _ && _ = true |- _ => apply andb_true_iff in H; destruct H
         end;
  repeat match goal with
         | H : ?a = true -> _, H' : ?a = true |- _ => specialize (H H')
         | H : true = true -> _ |- _ => specialize (H eq_refl)
         end.
Ltac renamed := repeat (progress (rewrite ?rens_app, ?rens_cons, ?rens_nil, ?ren_name, ?ren_punct, ?ren_P, ?ren_K; cbn [app])).
Ltac swside :=
  first [ assumption
        | rewrite rens_starts; assumption | rewrite rens_opening; assumption | rewrite rens_no_in; assumption
        | rewrite rens_line; assumption | rewrite rens_hd; assumption
        | apply rens_name; assumption | apply rens_fun; assumption | apply rens_modif; assumption | apply rens_static; assumption
        | apply rens_w_async; assumption | rewrite rens_line_ok; assumption
        | apply rens_path; assumption | apply rens_end; assumption
        | apply sw_target; assumption | apply sw_assignable; assumption | apply sw_increments; assumption
        | rewrite sw_closed; assumption | apply map_some; assumption
        | rewrite <- rens_app; apply rens_some; assumption | eassumption ].

Lemma written_swap : (forall e ts, w_expr e ts -> ok_e g e = true -> w_expr (sw_e f e) (rens ts))
  /\ (forall e ts, w_assign e ts -> ok_e g e = true -> w_assign (sw_e f e) (rens ts))
  /\ (forall e ts, w_arrow e ts -> forallb (ok_p g) e = true -> w_arrow (map (sw_p f) e) (rens ts))
  /\ (forall e ts, w_cond e ts -> ok_e g e = true -> w_cond (sw_e f e) (rens ts))
  /\ (forall b e ts, w_bin b e ts -> ok_e g e = true -> w_bin b (sw_e f e) (rens ts))
  /\ (forall e ts, w_unary e ts -> ok_e g e = true -> w_unary (sw_e f e) (rens ts))
  /\ (forall e ts, w_post e ts -> ok_e g e = true -> w_post (sw_e f e) (rens ts))
  /\ (forall e ts, w_left e ts -> ok_e g e = true -> w_left (sw_e f e) (rens ts))
  /\ (forall e ts, w_primary e ts -> ok_e g e = true -> w_left (sw_e f e) (rens ts))
  /\ (forall e ts, w_list e ts -> forallb (ok_e g) e = true -> w_list (map (sw_e f) e) (rens ts))
  /\ (forall e ts, w_list1 e ts -> forallb (ok_e g) e = true -> w_list1 (map (sw_e f) e) (rens ts))
  /\ (forall e ts, w_item e ts -> ok_e g e = true -> w_item (sw_e f e) (rens ts))
  /\ (forall e ts, w_props e ts -> forallb (ok_o g) e = true -> w_props (map (sw_o f) e) (rens ts))
  /\ (forall e ts, w_props1 e ts -> forallb (ok_o g) e = true -> w_props1 (map (sw_o f) e) (rens ts))
  /\ (forall e ts, w_prop e ts -> ok_o g e = true -> w_prop (sw_o f e) (rens ts))
  /\ (forall e ts, w_key e ts -> ok_k g e = true -> w_key (sw_k f e) (rens ts))
  /\ (forall e ts, w_function e ts -> ok_f g e = true -> w_function (sw_f f e) (rens ts))
  /\ (forall e ts, w_class e ts -> ok_c g e = true -> w_class (sw_c f e) (rens ts))
  /\ (forall e ts, w_ext e ts -> match e with Some x => ok_e g x | None => true end = true -> w_ext (match e with Some x => Some (sw_e f x) | None => None end) (rens ts))
  /\ (forall e ts, w_members e ts -> forallb (ok_m g) e = true -> w_members (map (sw_m f) e) (rens ts))
  /\ (forall b e ts, w_member b e ts -> ok_m g e = true -> w_member b (sw_m f e) (rens ts))
  /\ (forall e ts, w_params e ts -> forallb (ok_p g) e = true -> w_params (map (sw_p f) e) (rens ts))
  /\ (forall e ts, w_elems e ts -> forallb (ok_p g) e = true -> w_elems (map (sw_p f) e) (rens ts))
  /\ (forall e ts, w_elems1 e ts -> forallb (ok_p g) e = true -> w_elems1 (map (sw_p f) e) (rens ts))
  /\ (forall e ts, w_elem e ts -> ok_p g e = true -> w_elem (sw_p f e) (rens ts))
  /\ (forall e ts, w_pat e ts -> ok_p g e = true -> w_pat (sw_p f e) (rens ts))
  /\ (forall e ts, w_fields e ts -> forallb (ok_p g) e = true -> w_fields (map (sw_p f) e) (rens ts))
  /\ (forall e ts, w_fields1 e ts -> forallb (ok_p g) e = true -> w_fields1 (map (sw_p f) e) (rens ts))
  /\ (forall e ts, w_field e ts -> ok_p g e = true -> w_field (sw_p f e) (rens ts))
  /\ (forall e ts, w_body e ts -> forallb (ok_s g) e = true -> w_body (map (sw_s f) e) (rens ts))
  /\ (forall b e ts, w_stmts b e ts -> forallb (ok_s g) e = true -> w_stmts b (map (sw_s f) e) (rens ts))
  /\ (forall b e ts, w_stmts1 b e ts -> forallb (ok_s g) e = true -> w_stmts1 b (map (sw_s f) e) (rens ts))
  /\ (forall b e ts, w_stmt b e ts -> ok_s g e = true -> w_stmt b (sw_s f e) (rens ts))
  /\ (forall e ts, w_decls e ts -> forallb (fun d => match d with (p, o) => ok_p g p && match o with Some e => ok_e g e | None => true end end) e = true -> w_decls (map (fun d => match d with (p, o) => (sw_p f p, match o with Some e => Some (sw_e f e) | None => None end) end) e) (rens ts))
  /\ (forall e ts, w_decl e ts -> match e with (p, o) => ok_p g p && match o with Some e => ok_e g e | None => true end end = true -> w_decl (match e with (p, o) => (sw_p f p, match o with Some e => Some (sw_e f e) | None => None end) end) (rens ts))
  /\ (forall e ts, w_init e ts -> ok_i g e = true -> w_init (sw_i f e) (rens ts))
  /\ (forall e ts, w_opt e ts -> match e with Some x => ok_e g x | None => true end = true -> w_opt (match e with Some x => Some (sw_e f x) | None => None end) (rens ts))
  /\ (forall e ts, w_handler e ts -> match e with Some (o, r) => match o with Some p => ok_p g p | None => true end && forallb (ok_s g) r | None => true end = true -> w_handler (match e with Some (o, r) => Some ((match o with Some p => Some (sw_p f p) | None => None end), map (sw_s f) r) | None => None end) (rens ts))
  /\ (forall e ts, w_final e ts -> match e with Some r => forallb (ok_s g) r | None => true end = true -> w_final (match e with Some r => Some (map (sw_s f) r) | None => None end) (rens ts))
  /\ (forall e ts, w_cases e ts -> forallb (fun c => match c with (o, b) => match o with Some e => ok_e g e | None => true end && forallb (ok_s g) b end) e = true -> w_cases (map (fun c => match c with (o, b) => ((match o with Some e => Some (sw_e f e) | None => None end), map (sw_s f) b) end) e) (rens ts))
  /\ (forall e ts, w_case e ts -> match e with Some x => ok_e g x | None => true end = true -> w_case (match e with Some x => Some (sw_e f x) | None => None end) (rens ts)).
Proof.
  apply w_mind; intros; swsimpl.
  - renamed. eapply we_one; swside.
  - renamed. eapply we_comma; swside.
  - renamed. eapply wa_cond; swside.
  - renamed. eapply wa_assign; swside.
  - renamed. eapply wa_arrow; swside.
  - renamed. eapply wa_arrow_body; swside.
  - renamed. eapply wa_yield; swside.
  - renamed. eapply wa_yield_all; swside.
  - renamed. eapply war_name; swside.
  - renamed. eapply war_params; swside.
  - renamed. eapply wc_bin; swside.
  - renamed. eapply wc_if; swside.
  - renamed. eapply wb_unary; swside.
  - renamed. rewrite (ren_rank _ _ _ H). cbn [app]. eapply wb_op; swside.
  - renamed. eapply wu_post; swside.
  - renamed. rewrite (ren_prefix _ _ H). cbn [app]. eapply wu_pre; swside.
  - renamed. eapply wu_pow; swside.
  - renamed. eapply wp_left; swside.
  - renamed. eapply wp_post; swside.
  - renamed. eapply wp_new; swside.
  - renamed. assumption.
  - renamed. rewrite (ren_member _ _ H2). cbn [app]. eapply wl_member; swside.
  - renamed. eapply wl_index; swside.
  - renamed. eapply wl_call; swside.
  - renamed. eapply wl_opt_index; swside.
  - renamed. eapply wl_opt_call; swside.
  - renamed. rewrite (ren_kept _ (Template, t)) by assumption. cbn [app]. eapply wl_tag; swside.
  - renamed. eapply wl_primary, wr_word; swside.
  - renamed. cbn [rens flat_map]. rewrite app_nil_r. apply ren_lit; assumption.
  - renamed. eapply wl_primary, wr_paren; swside.
  - renamed. eapply wl_primary, wr_array; swside.
  - renamed. eapply wl_primary, wr_object; swside.
  - renamed. eapply wl_primary, wr_fun; swside.
  - renamed. eapply wl_primary, wr_class; swside.
  - renamed. eapply wl_primary, wr_new; swside.
  - renamed. eapply wi_none; swside.
  - renamed. eapply wi_some; swside.
  - renamed. eapply wi_one; swside.
  - renamed. eapply wi_cons; swside.
  - renamed. eapply wi_assign; swside.
  - renamed. eapply wi_spread; swside.
  - renamed. eapply wo_none; swside.
  - renamed. eapply wo_some; swside.
  - renamed. eapply wo_one; swside.
  - renamed. eapply wo_cons; swside.
  - renamed. eapply wo_key; swside.
  - renamed. eapply wo_short; swside.
  - renamed. eapply wo_spread; swside.
  - renamed. eapply wo_method; swside.
  - renamed. cbn [sw_k ok_k] in *. rewrite (ren_kept _ _ H0). cbn [app]. eapply wke_name; swside.
  - renamed. eapply wke_expr; swside.
  - renamed. eapply wfu; swside.
  - renamed. eapply wcl; swside.
  - renamed. eapply wex_none; swside.
  - renamed. eapply wex_some; swside.
  - renamed. eapply wg_none; swside.
  - renamed. eapply wg_one; swside.
  - renamed. eapply wg_cons; swside.
  - renamed. eapply wg_empty; swside.
  - renamed. eapply wg_method; swside.
  - renamed. eapply wg_field; swside.
  - renamed. eapply wg_value; swside.
  - renamed. eapply wq; swside.
  - renamed. eapply wj_none; swside.
  - renamed. eapply wj_some; swside.
  - renamed. eapply wj_one; swside.
  - renamed. eapply wj_rest; swside.
  - renamed. eapply wj_cons; swside.
  - renamed. eapply wel_pat; swside.
  - renamed. eapply wel_default; swside.
  - renamed. eapply wpa_name; swside.
  - renamed. eapply wpa_array; swside.
  - renamed. eapply wpa_object; swside.
  - renamed. eapply wfi_none; swside.
  - renamed. eapply wfi_some; swside.
  - renamed. eapply wfi_one; swside.
  - renamed. eapply wfi_cons; swside.
  - renamed. eapply wfi_short; swside.
  - renamed. eapply wfi_default; swside.
  - renamed. eapply wfi_key; swside.
  - renamed. eapply wfi_rest; swside.
  - renamed. eapply wd_body; swside.
  - renamed. eapply ws_none; swside.
  - renamed. eapply ws_some; swside.
  - renamed. eapply ws_one; swside.
  - renamed. eapply ws_cons; swside.
  - renamed. eapply wt_empty; swside.
  - renamed. eapply wt_expr; swside.
  - renamed. eapply wt_var; swside.
  - renamed. eapply wt_block; swside.
  - renamed. eapply wt_if; swside.
  - renamed. eapply wt_else; swside.
  - renamed. eapply wt_while; swside.
  - renamed. eapply wt_do; swside.
  - renamed. eapply wt_for; swside.
  - renamed. eapply wt_for_in; swside.
  - renamed. eapply wt_for_var; swside.
  - renamed. eapply wt_return_none; swside.
  - renamed. eapply wt_return; swside.
  - renamed. eapply wt_throw; swside.
  - renamed. eapply wt_jump; swside.
  - renamed. eapply wt_jump_label; swside.
  - renamed. eapply wt_try; swside.
  - renamed. eapply wt_switch; swside.
  - renamed. eapply wt_fun; swside.
  - renamed. eapply wt_class; swside.
  - renamed. eapply wt_label; swside.
  - renamed. eapply wv_one; swside.
  - renamed. eapply wv_cons; swside.
  - renamed. eapply wv_name; swside.
  - renamed. eapply wv_value; swside.
  - renamed. eapply wz_none; swside.
  - renamed. eapply wz_expr; swside.
  - renamed. eapply wz_var; swside.
  - renamed. eapply wx_none; swside.
  - renamed. eapply wx_some; swside.
  - renamed. eapply wh_none; swside.
  - renamed. eapply wh_catch; swside.
  - renamed. eapply wh_name; swside.
  - renamed. eapply wf_none; swside.
  - renamed. eapply wf_some; swside.
  - renamed. eapply wy_none; swside.
  - renamed. eapply wy_last; swside.
  - renamed. eapply wy_cons; swside.
  - renamed. eapply wy_default; swside.
  - renamed. eapply wy_case; swside.
Qed.

Theorem program_swap : forall t ts, program t ts -> forallb (ok_s g) t = true -> program (map (sw_s f) t) (rens ts).
Proof. intros t ts H O. apply (proj1 (proj2 (proj2 (proj2 (proj2 (proj2 (proj2 (proj2 (proj2 (proj2 (proj2 (proj2 (proj2 (proj2 (proj2 (proj2 (proj2 (proj2 (proj2 (proj2 (proj2 (proj2 (proj2 (proj2 (proj2 (proj2 (proj2 (proj2 (proj2 (proj2 (proj2 written_swap))))))))))))))))))))))))))))))); assumption. Qed.
End Ren.

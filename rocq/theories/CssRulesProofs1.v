(** Parts with what may stand before them: a layout is a plain style sheet. *)
From Coq Require Import String Arith List NArith Bool Lia.
From Verif Require Import Base CssPlainSpec CssRulesSpec.
Import ListNotations.
Open Scope N_scope.

Section Fits.
Variable u : N -> bool.

Definition last_at (x : place) : bool := match last x with Some KAt => true | _ => false end.

Definition last_notice (x : place) : bool := match last x with Some KLicence => true | _ => false end.

Definition kept_before (x : place) (p : part) : bool :=
  match last x with None => false | Some a => keeps (calc x) a (Some (kind_of u x p)) end.

(** No equal sign after a sign that takes one, no [/ *=]. *)
Definition no_joining (x : place) (p : part) : bool :=
  negb (would_match x p) && negb (after 0x2F x && match p with Match c => c =? 0x2A | _ => false end).

Definition fit (x : place) (s : slot) (p : part) : bool :=
  part_ok x p && match p with Licence c _ => c =? 0x21 | Escape _ => false | _ => true end
  && match s with
     | Tight => direct_ok x p && negb (last_at x) && negb (last_notice x)
     | Loose =>
         direct_ok x p && no_joining x p && negb (last_at x) && negb (calc x) && negb (kept_before x p)
         && match last x with None => false | _ => true end
     | Blanks => direct_ok x p && no_joining x p && negb (last_at x) && negb (kept_before x p)
     | Needed => no_joining x p && negb (last_at x) && negb (calc x) && kept_before x p && negb (wordy p && after 0x3A x && selects x)
     | Spread => no_joining x p && negb (last_at x) && kept_before x p && negb (wordy p && after 0x3A x && selects x)
     | AfterAt =>
         last_at x && negb (is_sign 0x2A p) && negb (calc x) && (is_word p || direct_ok x p)
     end.

Fixpoint run (x : place) (l : list chunk) : option place :=
  match l with
  | [] => Some x
  | (s, p) :: r => if fit x s p then run (step u x p) r else None
  end.

Lemma run_app : forall l m x, run x (l ++ m) = match run x l with Some y => run y m | None => None end.
Proof.
  induction l as [|[s p] l IH]; intros m x; [reflexivity|]. cbn [app run]. destruct (fit x s p); [apply IH | reflexivity].
Qed.

(** The place at the end of a sheet. *)
Definition over (x : place) : Prop :=
  calc x = false /\ (last x = None \/ last x = Some (KSign 0x7D) \/ last x = Some (KSign 0x3B) \/ last x = Some KLicence).

Definition agrees (prev : option part) (x : place) : Prop :=
  (last x = None -> prev = None) /\ (forall c, prev = Some (Sign c) -> last x = Some (KSign c))
  /\ forall c b, prev = Some (Licence c b) -> last x = Some KLicence.

Lemma agrees_step : forall x p, agrees (Some p) (step u x p).
Proof. intros x p. split; [discriminate|]. split; [intros c E | intros c b E]; injection E; intros; subst; reflexivity. Qed.

Definition gap_items (g : list filler) : list item := match g with [] => [] | _ => [Between g] end.

Lemma gap_items_text : forall g, text (gap_items g) = gap_text g.
Proof. intros [|f g]; [reflexivity|]. unfold text, gap_text. cbn [gap_items flat_map item_text]. now rewrite app_nil_r. Qed.

Lemma text_app : forall l m, text (l ++ m) = text l ++ text m.
Proof. intros. apply flat_map_app. Qed.

Lemma blanks_no_comment : forall g, forallb is_blank g = true -> existsb is_comment g = false.
Proof. induction g as [|[c|b] g IH]; cbn; [reflexivity| exact IH | discriminate]. Qed.

Lemma blanks_lead : forall g, forallb is_blank g = true -> leads g = true.
Proof. intros g H. pose proof (blanks_no_comment g H) as E. destruct g as [|[c|b] g]; [reflexivity| |discriminate]. unfold leads. now rewrite E. Qed.

Lemma shown_text : forall p, match p with Licence c _ => c =? 0x21 | Escape _ => false | _ => true end = true ->
  forall x, shown p = part_text p ++ line_end p ++ (if last_at (step u x p) then [0x20] else []).
Proof.
  intros [w|w|w|t|c|c|c b|c] H x; try discriminate; unfold last_at; cbn [shown step last kind_of line_end app]; rewrite ?app_nil_r; try reflexivity.
  - now destruct (selects x && negb (after 0x3A x) && names u w); rewrite app_nil_r.
  - apply N.eqb_eq in H. now subst.
Qed.

(** What is shown in front of a part. *)
Lemma gap_shown : forall prev x s p g, agrees prev x -> fit x s p = true -> gap_fits prev s p g = true ->
  (if last_at x then [0x20] else []) ++ (match g with [] => [] | _ => if stays x g (Some (kind_of u x p)) then [0x20] else [] end) = slot_text s.
Proof.
  intros prev x s p g _ F G. unfold fit in F. apply andb_true_iff in F. destruct F as [_ F]. unfold gap_fits in G.
  apply andb_true_iff in G. destruct G as [_ G]. unfold last_at, kept_before, stays in *. destruct s; rewrite ?andb_true_iff, ?negb_true_iff in F; cbn [slot_text].
  - destruct g; [|discriminate]. destruct F as [[_ ->] _]. reflexivity.
  - destruct F as (((((_ & _) & ->) & _) & K) & N). destruct (last x); [|discriminate]. rewrite K. now destruct g.
  - destruct F as (((_ & _) & ->) & K). destruct (last x); [rewrite K|]; (destruct g as [|f g]; [reflexivity|]); [reflexivity|].
    rewrite blanks_no_comment by exact G. reflexivity.
  - destruct F as ((((_ & ->) & _) & K) & _). destruct g as [|f g]; [discriminate|]. destruct (last x); [|discriminate]. now rewrite K.
  - destruct F as (((_ & ->) & K) & _). apply andb_true_iff in G. destruct G as [_ G]. destruct g as [|f g]; [discriminate|].
    destruct (last x); [|discriminate]. now rewrite K.
  - destruct F as (((K & _) & C) & _). destruct (last x) as [[]|]; try discriminate. cbn [keeps]. now destruct g.
Qed.

Lemma gap_plain : forall prev x s p g r, agrees prev x -> fit x s p = true -> gap_fits prev s p g = true ->
  plain u (step u x p) None r = true -> plain u x None (gap_items g ++ Piece p :: r) = true.
Proof.
  intros prev x s p g r [_ [A A2]] F G R. unfold fit in F. apply andb_true_iff in F. destruct F as [F1 F]. apply andb_true_iff in F1. destruct F1 as [F1 Es].
  assert (NE : is_escape p = false) by (destruct p; try reflexivity; discriminate). clear Es.
  unfold gap_fits in G. apply andb_true_iff in G. destruct G as [G1 G]. destruct g as [|f g]; cbn [gap_items app plain].
  - rewrite F1, R. rewrite andb_true_r. cbn [andb]. destruct s; rewrite ?andb_true_iff in F; try tauto; try discriminate.
    destruct F as (_ & F). apply negb_true_iff in G. rewrite G in F. exact F.
  - rewrite G1, F1, R. cbn [andb]. rewrite !andb_true_r. unfold gap_ok. rewrite NE. cbn [negb]. rewrite (andb_true_r (negb (after 0x2F x && _))).
    assert (Lead : forall b, last x = None \/ (exists a, last x = Some a /\ (keeps (calc x) a b = true \/ leads (f :: g) = true \/ (exists d, a = KSign d /\ among (S_ ")]") d = false) \/ a = KLicence)) \/ last x = Some KAt ->
       match last x with
       | Some a => match a with
                   | KWord | KElement | KText | KEscape => keeps (calc x) a b || leads (f :: g)
                   | KSign d => if (d =? 0x29) || (d =? 0x5D) then keeps (calc x) a b || leads (f :: g) else true
                   | _ => true
                   end
       | None => true
       end = true).
    { intros b [-> | [(a & -> & H) | ->]]; try reflexivity. destruct a; try reflexivity; destruct H as [-> | [-> | [(d & E & Hd) | E]]]; rewrite ?orb_true_r; try reflexivity; try discriminate.
      - now destruct ((c =? 0x29) || (c =? 0x5D)).
      - now destruct ((c =? 0x29) || (c =? 0x5D)).
      - injection E as ->. cbn [among S_] in Hd. unfold among in Hd. cbn in Hd. rewrite orb_false_r in Hd. now rewrite Hd. }
    destruct s; rewrite ?andb_true_iff in F; unfold no_joining, last_at, kept_before in F; rewrite ?andb_true_iff, ?negb_true_iff in F.
    + discriminate.
    + destruct F as (((((D & (W & J)) & L) & C) & K) & N). rewrite W, J. rewrite C in Lead, K |- *. cbn [negb andb].
      assert (L' : match last x with Some KAt => is_sign 0x2A p | _ => false end = false) by (destruct (last x) as [[]|]; try reflexivity; discriminate).
      rewrite L'. cbn [negb andb].
      assert (Wd : wordy p && after 0x3A x && selects x = false).
      { unfold direct_ok in D. rewrite !andb_true_iff, !negb_true_iff in D. destruct D as [_ D]. unfold after. destruct (wordy p); [|reflexivity].
        destruct (last x) as [[]|]; try reflexivity. exact D. }
      rewrite Wd. cbn [andb]. apply Lead. apply orb_true_iff in G. destruct (last x) as [a|]; [|now left]. right. left. exists a. split; [reflexivity|].
      destruct G as [G | G]; [|auto]. right. right. unfold roomy in G. destruct prev as [[]|]; try discriminate; [left|specialize (A2 c b eq_refl); injection A2 as ->; now right].
      specialize (A c eq_refl). injection A as ->. exists c. split; [reflexivity|]. now apply negb_true_iff.
    + destruct F as (((D & (W & J)) & L) & K). rewrite W, J. cbn [negb andb].
      assert (L' : match last x with Some KAt => is_sign 0x2A p | _ => false end = false) by (destruct (last x) as [[]|]; try reflexivity; discriminate).
      rewrite L', (blanks_no_comment _ G). cbn [negb andb].
      assert (B1 : (if wordy p && after 0x3A x && selects x then true else true) = true) by (now destruct (wordy p && after 0x3A x && selects x)). rewrite B1.
      assert (B2 : (if calc x then true else true) = true) by (now destruct (calc x)). rewrite B2. cbn [andb]. apply Lead.
      destruct (last x) as [a|]; [|now left]. right. left. exists a. split; [reflexivity|]. right. left. now apply blanks_lead.
    + destruct F as (((((W & J) & L) & C) & K) & Wd). rewrite W, J, Wd. rewrite C in Lead, K |- *. cbn [negb andb].
      assert (L' : match last x with Some KAt => is_sign 0x2A p | _ => false end = false) by (destruct (last x) as [[]|]; try reflexivity; discriminate).
      rewrite L'. cbn [negb andb]. apply Lead. destruct (last x) as [a|]; [|now left]. right. left. exists a. split; [reflexivity|]. left. exact K.
    + destruct F as ((((W & J) & L) & K) & Wd). apply andb_true_iff in G. destruct G as [G _]. rewrite W, J, Wd, (blanks_no_comment _ G). cbn [negb andb].
      assert (L' : match last x with Some KAt => is_sign 0x2A p | _ => false end = false) by (destruct (last x) as [[]|]; try reflexivity; discriminate).
      rewrite L'. cbn [negb andb]. assert (B2 : (if calc x then true else true) = true) by (now destruct (calc x)). rewrite B2. cbn [andb].
      apply Lead. destruct (last x) as [a|]; [|now left]. right. left. exists a. split; [reflexivity|]. left. exact K.
    + destruct F as (((L & S) & C) & D). destruct (last x) as [[]|] eqn:E; try discriminate. rewrite S, C. cbn [negb andb].
      assert (W : would_match x p = false) by (unfold would_match; rewrite E; apply andb_false_r).
      assert (J : after 0x2F x = false) by (unfold after; now rewrite E). assert (J2 : after 0x3A x = false) by (unfold after; now rewrite E).
      rewrite W, J, J2. rewrite andb_false_r. reflexivity.
Qed.

(** A layout goes through: a colon and a word directly after it are one part where selectors stand. *)
Inductive passes : place -> list chunk -> Prop :=
| pa_end : forall x, over x -> passes x []
| pa_part : forall x s p r, fit x s p = true -> passes (step u x p) r -> passes x ((s, p) :: r)
| pa_colon : forall x s s' w r, calc x = false -> s' = Tight \/ s' = Blanks -> a_word w = true ->
    fit x s (Sign 0x3A) = true -> fit x s (Pseudo w) = true -> passes (step u x (Pseudo w)) r ->
    (s' = Blanks -> passes (step u (step u x (Sign 0x3A)) (Word w)) r) ->
    passes x ((s, Sign 0x3A) :: (s', Word w) :: r).

Lemma run_passes : forall l m x y, run x l = Some y -> passes y m -> passes x (l ++ m).
Proof.
  induction l as [|[s p] l IH]; intros m x y R Q; cbn [run app] in *; [now injection R as ->|].
  destruct (fit x s p) eqn:F; [|discriminate]. apply pa_part; [exact F|]. now apply (IH m _ y).
Qed.

Lemma fit_notice : forall x s p, fit x s p = true -> match p with Licence c _ => c =? 0x21 | Escape _ => false | _ => true end = true.
Proof. intros x s p F. unfold fit in F. rewrite !andb_true_iff in F. tauto. Qed.

Lemma layout_plain : forall x l, passes x l -> forall prev s, laid_out prev l s -> agrees prev x ->
  exists items, s = text items /\ plain u x None items = true /\ (if last_at x then [0x20] else []) ++ compact u x items = canonical l.
Proof.
  intros x l Q. induction Q as [x O|x sl p l F Q IH|x sl s' w l C Hs Hw F Fp Q IH Q2 IH2]; intros prev s L A.
  - inversion L as [? g Hg Hp|]; subst. destruct O as [Oc Ol]. exists (gap_items g). split; [now rewrite gap_items_text|].
    destruct g as [|f g].
    + split; [reflexivity|]. unfold last_at. destruct Ol as [-> | [-> | [-> | ->]]]; reflexivity.
    + cbn [gap_items plain]. rewrite Hg. cbn [andb]. unfold gap_ok. rewrite Oc. cbn [andb compact]. unfold last_at, stays. cbn [next_kind].
      destruct Ol as [E | [E | [E | E]]]; rewrite E; [|split; [reflexivity|]; now rewrite Oc..].
      destruct A as [A _]. rewrite (A E) in Hp. rewrite (blanks_no_comment _ Hp). split; reflexivity.
  - inversion L as [|? ? ? ? g r G L']; subst.
    destruct (IH (Some p) r L' (agrees_step x p)) as (items & -> & Pl & Co).
    exists (gap_items g ++ Piece p :: items). split; [|split].
    + rewrite text_app, gap_items_text. reflexivity.
    + exact (gap_plain prev x sl p g items A F G Pl).
    + cbn [canonical flat_map fst snd]. fold (canonical l). rewrite <- Co, <- (gap_shown prev x sl p g A F G).
      destruct g as [|f g]; cbn [gap_items app compact next_kind]; rewrite (shown_text p (fit_notice _ _ _ F) x); rewrite ?app_nil_r, <- ?app_assoc; reflexivity.
  - inversion L as [|? ? ? ? g r G L']; subst. inversion L' as [|? ? ? ? g' r' G' L2]; subst. destruct g' as [|f g'].
    + destruct (IH (Some (Word w)) r' L2) as (items & -> & Pl & Co); [split; [discriminate|]; split; intros; discriminate|].
      assert (Gp : gap_fits prev sl (Pseudo w) g = true) by exact G.
      exists (gap_items g ++ Piece (Pseudo w) :: items). split; [|split].
      * rewrite text_app, gap_items_text. reflexivity.
      * exact (gap_plain prev x sl (Pseudo w) g items A Fp Gp Pl).
      * cbn [canonical flat_map fst snd]. fold (canonical l). assert (St : slot_text s' = []) by (destruct Hs; subst; reflexivity). rewrite St. cbn [part_text line_end app]. rewrite ?app_nil_r.
        rewrite <- Co, <- (gap_shown prev x sl (Pseudo w) g A Fp Gp).
        destruct g as [|f g]; cbn [gap_items app compact next_kind]; rewrite (shown_text (Pseudo w) eq_refl x); rewrite ?app_nil_r, <- ?app_assoc; reflexivity.
    + assert (s' = Blanks) as -> by (destruct Hs; subst; [unfold gap_fits in G'; rewrite andb_false_r in G'; discriminate|reflexivity]).
      destruct (IH2 eq_refl (Some (Word w)) r' L2 (agrees_step _ _)) as (items & -> & Pl & Co).
      exists (gap_items g ++ Piece (Sign 0x3A) :: Between (f :: g') :: Piece (Word w) :: items). split; [|split].
      * rewrite text_app, gap_items_text. unfold text, gap_text. cbn [flat_map item_text part_text app]. now rewrite <- ?app_assoc.
      * apply (gap_plain prev x sl (Sign 0x3A) g _ A F G). unfold gap_fits in G'. apply andb_true_iff in G'. destruct G' as [Gf Gb].
        cbn [plain]. rewrite Gf, Pl. cbn [andb]. rewrite andb_true_r.
        assert (Cs : calc (step u x (Sign 0x3A)) = false) by (unfold step; cbn; now rewrite C).
        assert (Ls : last (step u x (Sign 0x3A)) = Some (KSign 0x3A)) by reflexivity.
        unfold part_ok, gap_ok, after, would_match. rewrite Cs, Ls, Hw. cbn [andb is_sign N.eqb]. rewrite (blanks_no_comment _ Gb). cbn [negb andb wordy].
        rewrite ?andb_false_r. cbn. rewrite ?andb_false_r. cbn. now destruct (selects _).
      * cbn [canonical flat_map fst snd]. fold (canonical l). cbn [slot_text part_text line_end app]. rewrite ?app_nil_r.
        assert (Cs : calc (step u x (Sign 0x3A)) = false) by (unfold step; cbn; now rewrite C).
        rewrite <- Co, <- (gap_shown prev x sl (Sign 0x3A) g A F G).
        assert (Sy : forall b, stays (step u x (Sign 0x3A)) (f :: g') b = false) by (intro b; unfold stays; cbn [last step kind_of]; rewrite Cs; reflexivity).
        assert (La : last_at (step u (step u x (Sign 0x3A)) (Word w)) = false) by (unfold last_at; cbn [last step kind_of]; now destruct (_ && _ && _)).
        rewrite La. destruct g as [|f0 g]; cbn [gap_items app compact next_kind]; rewrite Sy; cbn [shown part_text app]; rewrite ?app_nil_r, <- ?app_assoc; reflexivity.
Qed.

End Fits.

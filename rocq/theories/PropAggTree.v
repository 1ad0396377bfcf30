(** C76: the syntax tree of a program after the documented aggregation of its string literals. *)
From Coq Require Import String Arith List NArith Bool Permutation.
From Verif Require Import Base JsModel JsUtilModel JsUtilSpec JsAggModel JsPipeSpec JsPipeProofs EsSpec JsPlainSpec JsTreeSpec
  JsAggTreeSpec JsAggTreeProofs2 PropJsAgg PropJsTree.
Import ListNotations.
Open Scope list_scope.
Open Scope N_scope.

(** A plain program, written as the grammar says, without words that start with r_, whose repeated
    literals are no keys, stand behind no tag and next to no words: a parser reads from the printed
    text the declaration of new names, followed by the tree of the program in which the literals
    are replaced by the names they are declared with, whatever the order of the hash map. *)
Theorem C76_tree : forall order, any_order order -> forall start_u part_u l t,
  JsPlainSpec.plain start_u part_u None false l = true -> apart start_u part_u (pieces l) = true ->
  program t (lines false l) ->
  r_free (pieces l) = true -> beside (pieces l) (pieces l) = true -> keys_once (pieces l) t = true ->
  exists d ds, documented order (text l) = Ok d /\ NoDup (map fst ds) /\ NoDup (map snd ds)
    /\ (forall x s, In (x, s) ds -> (exists y, x = S_ "r_" ++ y /\ Forall (fun c => alnum c = true) y)
          /\ exists e, In e (pieces l) /\ snd e = s /\ repeated (pieces l) e = true)
    /\ es_program start_u part_u d = Some (match ds with [] => drop_empty t | _ => declaring ds :: swapped_tree ds t end).
Proof. intros order O su pu l t H A W R B Ko. exact (documented_tree su pu order O l t H A W R B Ko). Qed.

(** A program without repeated literals has the tree it has without the aggregation. *)
Theorem C76_nothing_repeated : forall order, any_order order -> forall start_u part_u l t,
  JsPlainSpec.plain start_u part_u None false l = true -> apart start_u part_u (pieces l) = true ->
  program t (lines false l) -> r_free (pieces l) = true ->
  (forall e, In e (pieces l) -> repeated (pieces l) e = false) -> keys_once (pieces l) t = true ->
  exists d, documented order (text l) = Ok d /\ es_program start_u part_u d = Some (drop_empty t).
Proof.
  intros order O su pu l t H A W R N Ko.
  assert (B : forall ps, incl ps (pieces l) -> beside (pieces l) ps = true).
  { induction ps as [|a ps IH]; intro I; [reflexivity|]. rewrite beside_cons. destruct ps as [|c ps]; [reflexivity|].
    rewrite (N a (I a (or_introl eq_refl))), (N c (I c (or_intror (or_introl eq_refl)))). cbn [andb negb]. apply IH. intros y Y. apply I. now right. }
  destruct (C76_tree order O su pu l t H A W R (B _ (incl_refl _)) Ko) as (d & ds & D & _ & _ & F & E). exists d. split; [exact D|].
  destruct ds as [|[x s] r]; [exact E|]. exfalso. destruct (F x s (or_introl eq_refl)) as (_ & e & I & _ & X). rewrite (N e I) in X. discriminate X.
Qed.

(** ** A program *)

Open Scope string_scope.
Definition m (s : string) := Piece (Template, S_ s).

Definition cakes : list item :=
  [ nl "// cakes"; n "var"; b " "; n "a"; b " "; p "="; b " "; p "["; q "'carrot cake'"; p ","; b " "; n "x"; p "]"; b " "; p ";"; nl "";
    n "if"; b " "; p "("; n "a"; b " "; p "=="; b " "; m "`apple pie`"; p ")"; nl "";
    n "f"; p "("; q "'carrot cake'"; p ","; b " "; m "`apple pie`"; p ","; b " "; q "'x'"; p ")"; p ";" ].

Definition carrot := (Text, S_ "'carrot cake'").
Definition pie := (Template, S_ "`apple pie`").

Definition cakes_tree : list stmt :=
  [ SVar (S_ "var") [(PName (S_ "a"), Some (EArray [ELit carrot; w "x"]))];
    SIf (EBin (S_ "==") (w "a") (ELit pie))
      (SExpr (ECall (w "f") [ELit carrot; ELit pie; ELit (Text, S_ "'x'")])) None ].

Definition cakes_array := wl_primary _ _ (wr_array _ _ false false (wi_some _ _
  (wi_cons _ _ _ _ false (entry _ _ (lit carrot false eq_refl)) (wi_some _ _ (wi_one _ _ (entry _ _ (word "x" false eq_refl))))))).
Definition cakes_var := wt_var false (S_ "var") _ _ _ true eq_refl
  (wv_one _ _ (wv_value _ _ _ _ false (wpa_name (S_ "a") false eq_refl) (left_assign _ _ cakes_array))) (wn_semicolon false false).
Definition cakes_test := expression _ _ (wb_op 1 6 (P "==") _ _ _ _ false eq_refl ltac:(auto with arith)
  (left_bin 6 _ _ (word "a" false eq_refl)) (left_bin 7 _ _ (lit pie false eq_refl))).
Definition cakes_call := wt_expr true _ _ _ (expression _ _ (left_bin 1 _ _
  (wl_call _ _ _ _ false false (word "f" true eq_refl) (wi_some _ _
    (wi_cons _ _ _ _ false (entry _ _ (lit carrot false eq_refl)) (wi_some _ _
      (wi_cons _ _ _ _ false (entry _ _ (lit pie false eq_refl)) (wi_some _ _
        (wi_one _ _ (entry _ _ (lit (Text, S_ "'x'") false eq_refl))))))))))) eq_refl (wn_semicolon true false).

Example C76_program : program cakes_tree (lines false cakes).
Proof. exact (ws_some _ _ _ (ws_cons true _ _ _ _ cakes_var (ws_one true _ _ (wt_if true _ _ _ _ true false false cakes_test cakes_call)))). Qed.

Example C76_ex : JsPlainSpec.plain ascii ascii None false cakes = true /\ apart ascii ascii (pieces cakes) = true
  /\ r_free (pieces cakes) = true /\ beside (pieces cakes) (pieces cakes) = true /\ keys_once (pieces cakes) cakes_tree = true
  /\ exists d ds, documented last_first (text cakes) = Ok d
    /\ d = S_ "var r_aa='carrot cake',r_ba=`apple pie`;var a=[r_aa,x];if(a==r_ba)f(r_aa,r_ba,'x');"
    /\ ds = [(S_ "r_aa", S_ "'carrot cake'"); (S_ "r_ba", S_ "`apple pie`")]
    /\ es_program ascii ascii d = Some (declaring ds :: swapped_tree ds cakes_tree)
    /\ swapped_tree ds cakes_tree =
         [ SVar (S_ "var") [(PName (S_ "a"), Some (EArray [w "r_aa"; w "x"]))];
           SIf (EBin (S_ "==") (w "a") (w "r_ba"))
             (SExpr (ECall (w "f") [w "r_aa"; w "r_ba"; ELit (Text, S_ "'x'")])) None ].
Proof.
  split; [vm_compute; reflexivity|]. split; [vm_compute; reflexivity|]. split; [vm_compute; reflexivity|]. split; [vm_compute; reflexivity|]. split; [vm_compute; reflexivity|].
  eexists. eexists. split; [vm_compute; reflexivity|]. split; [vm_compute; reflexivity|]. split; [reflexivity|]. split; vm_compute; reflexivity.
Qed.

(** ** Keys

    Without the condition on keys: the key of an object is replaced by the name itself, so that the
    property is called r_aa. *)
Definition keyed_source : list item :=
  [ n "x"; p "="; p "{"; q "'carrot cake'"; p ":"; d "1"; p "}"; p ";"; n "y"; p "="; p "{"; q "'carrot cake'"; p ":"; d "2"; p "}"; p ";" ].
Definition keyed_tree (e : element) : list stmt :=
  [ SExpr (EAssign (w "x") (S_ "=") (EObject [OKey (KName e) (ELit (Number, S_ "1"))]));
    SExpr (EAssign (w "y") (S_ "=") (EObject [OKey (KName e) (ELit (Number, S_ "2"))])) ].

Definition keyed_set (x : string) (v : str) (last : bool) (H : binding (S_ x) = true) (I : ident (S_ x) = true)
  (O : opening ((false, (Name, S_ x)) :: (false, P "=") :: (false, P "{") :: (false, carrot) :: (false, P ":") :: (false, (Number, v)) :: [(false, P "}")]) = true)
  : w_stmt last (SExpr (EAssign (w x) (S_ "=") (EObject [OKey (KName carrot) (ELit (Number, v))]))) _ :=
  wt_expr last _ _ _ (we_one _ _ (wa_assign (w x) (S_ "=") _ _ _ false (word x false I) (proj2 (orb_true_iff _ _) (or_introl H)) eq_refl
    (left_assign _ _ (wl_primary _ _ (wr_object _ _ false false (wo_some _ _ (wo_one _ _ (wo_key _ _ _ _ false (wke_name carrot false eq_refl)
      (left_assign _ _ (lit (Number, v) false eq_refl)))))))))) O (wn_semicolon last false).

Example C76_keyed : program (keyed_tree carrot) (lines false keyed_source).
Proof. exact (ws_some _ _ _ (ws_cons true _ _ _ _ (keyed_set "x" (S_ "1") false eq_refl eq_refl eq_refl) (ws_one true _ _ (keyed_set "y" (S_ "2") true eq_refl eq_refl eq_refl)))). Qed.

Theorem C76_keys_refuted : exists l t d u,
  JsPlainSpec.plain ascii ascii None false l = true /\ apart ascii ascii (pieces l) = true /\ program t (lines false l)
  /\ r_free (pieces l) = true /\ beside (pieces l) (pieces l) = true
  /\ documented last_first (text l) = Ok d /\ es_program ascii ascii d = Some u
  /\ t = keyed_tree carrot
  /\ u = declaring [(S_ "r_aa", S_ "'carrot cake'")] :: keyed_tree (Name, S_ "r_aa").
Proof.
  exists keyed_source, (keyed_tree carrot). eexists. eexists. split; [vm_compute; reflexivity|]. split; [vm_compute; reflexivity|]. split; [exact C76_keyed|].
  split; [vm_compute; reflexivity|]. split; [vm_compute; reflexivity|]. split; [vm_compute; reflexivity|]. split; [vm_compute; reflexivity|]. split; reflexivity.
Qed.

(** ** Directives

    The declaration stands before a use strict directive, which is no directive any more then:
    the program is no longer in strict mode. *)
Definition strict_source : list item :=
  [ q "'use strict'"; p ";"; n "f"; p "("; q "'carrot cake'"; p ","; q "'carrot cake'"; p ")"; p ";" ].
Definition strict_tree : list stmt :=
  [ SExpr (ELit (Text, S_ "'use strict'")); SExpr (ECall (w "f") [ELit carrot; ELit carrot]) ].

Example C76_strict : program strict_tree (lines false strict_source).
Proof.
  exact (ws_some _ _ _ (ws_cons true _ _ _ _
    (wt_expr false _ _ _ (expression _ _ (left_bin 1 _ _ (lit (Text, S_ "'use strict'") false eq_refl))) eq_refl (wn_semicolon false false))
    (ws_one true _ _ (wt_expr true _ _ _ (expression _ _ (left_bin 1 _ _
      (wl_call _ _ _ _ false false (word "f" false eq_refl) (wi_some _ _ (wi_cons _ _ _ _ false (entry _ _ (lit carrot false eq_refl))
        (wi_some _ _ (wi_one _ _ (entry _ _ (lit carrot false eq_refl))))))))) eq_refl (wn_semicolon true false))))).
Qed.

Theorem C76_directives_refuted : exists l t d u,
  JsPlainSpec.plain ascii ascii None false l = true /\ apart ascii ascii (pieces l) = true /\ program t (lines false l)
  /\ r_free (pieces l) = true /\ beside (pieces l) (pieces l) = true /\ keys_once (pieces l) t = true
  /\ documented last_first (text l) = Ok d /\ es_program ascii ascii d = Some u
  /\ directives t = [S_ "'use strict'"] /\ directives u = [].
Proof.
  exists strict_source, strict_tree. eexists. eexists. split; [vm_compute; reflexivity|]. split; [vm_compute; reflexivity|]. split; [exact C76_strict|].
  split; [vm_compute; reflexivity|]. split; [vm_compute; reflexivity|]. split; [vm_compute; reflexivity|]. split; [vm_compute; reflexivity|]. split; [vm_compute; reflexivity|]. split; reflexivity.
Qed.

Print Assumptions C76_tree.
Print Assumptions C76_nothing_repeated.
Print Assumptions C76_keys_refuted.
Print Assumptions C76_directives_refuted.

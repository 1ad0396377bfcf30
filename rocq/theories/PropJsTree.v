(** C74: a parser reads the same syntax tree from the minified program. *)
From Coq Require Import String Arith List NArith Bool.
From Verif Require Import Base JsModel JsUtilModel EsSpec JsPlainSpec JsPlainProofs2 JsTreeSpec JsTreeProofs4 JsTreeProofs5.
Import ListNotations.
Open Scope N_scope.

(** For a plain program (JsPlainSpec) that is written as the grammar says, with its semicolons, the
    parser reads its tree from the source, and from the output the same one without the empty
    statements at the beginning. *)
Theorem C74_js_tree : forall start_u part_u l t, plain start_u part_u None false l = true ->
  apart start_u part_u (pieces l) = true -> program t (lines false l) ->
  es_program start_u part_u (text l) = Some t
  /\ exists d, js_minify (text l) = Ok d /\ es_program start_u part_u d = Some (drop_empty t).
Proof.
  intros su pu l t H A W. split; [exact (tree_source su pu t l H W)|]. exists (compact (skip_semicolons (pieces l))).
  split; [exact (plain_minify su pu l H)|exact (tree_output su pu t l H A W)].
Qed.

(** If the outputs of two such programs are equal, so are their trees. *)
Theorem C74_js_tree_apart : forall start_u part_u l m t u d,
  plain start_u part_u None false l = true -> plain start_u part_u None false m = true ->
  apart start_u part_u (pieces l) = true -> apart start_u part_u (pieces m) = true ->
  program t (lines false l) -> program u (lines false m) ->
  js_minify (text l) = Ok d -> js_minify (text m) = Ok d -> drop_empty t = drop_empty u.
Proof.
  intros su pu l m t u d H K A B V W D E. destruct (C74_js_tree su pu l t H A V) as (_ & x & D' & X). destruct (C74_js_tree su pu m u K B W) as (_ & y & E' & Y).
  rewrite D in D'. injection D' as <-. rewrite E in E'. injection E' as <-. rewrite X in Y. injection Y as Y. exact Y.
Qed.

(** Whatever the program means: an engine reads its tokens and line ends from the source, and the
    tokens without any line end from the output. *)
Theorem C74_js_lines : forall start_u part_u l d, plain start_u part_u None false l = true ->
  apart start_u part_u (pieces l) = true -> js_minify (text l) = Ok d ->
  es_lines start_u part_u usual_goal (text l) = Some (lines false l)
  /\ es_lines start_u part_u usual_goal d = Some (map (pair false) (skip_semicolons (pieces l))).
Proof.
  intros su pu l d H A D. rewrite (plain_minify su pu l H) in D. injection D as <-.
  pose proof (usual_ok su pu l None false [] H (or_introl eq_refl)) as G. split.
  - exact (text_lines su pu usual_goal l None false [] false H G).
  - apply compact_lines; [apply skip_forallb, (pieces_plain _ _ l None false H)|apply skip_apart, A|apply skip_goal, G].
Qed.

(** The grammar is unambiguous. *)
Theorem C74_unambiguous : forall t u ts, program t ts -> program u ts -> t = u.
Proof. intros t u ts H K. pose proof (program_parse t ts H) as X. rewrite (program_parse u ts K) in X. injection X as X. auto. Qed.

(** ** A program *)

Open Scope string_scope.
Definition b (s : string) := Between (S_ s).
Definition nl (s : string) := Between (app (S_ s) [0xA%N]).
Definition n (s : string) := Piece (Name, S_ s).
Definition p (s : string) := Piece (Punct, S_ s).
Definition q (s : string) := Piece (Text, S_ s).
Definition d (s : string) := Piece (Number, S_ s).
Definition ascii (_ : N) := false.

Definition source : list item :=
  [ p ";"; nl "";
    n "function"; b " "; n "f"; p "("; n "a"; p ","; b " "; n "b"; p ")"; b " "; p "{"; nl " // a comment";
    n "if"; b " "; p "("; n "a"; b " "; p "<"; b " "; n "b"; p ")"; nl "";
    n "return"; b " "; n "a"; b " "; p "+"; nl ""; n "b"; b " "; p "*"; b " "; d "2"; p ";"; nl "";
    n "else"; b " "; n "b"; b " "; p "="; b " "; p "["; n "a"; p ","; b " "; q "'x'"; p "]"; p "."; n "y"; nl ""; p "}"; nl "";
    n "f"; p "("; d "1"; p ")"; p ";"; nl ""; n "x"; p "++" ].

(** Its tree: every token with the line end before it is named. *)
Definition left_assign (e : expr) (ts : list tok) (H : w_left e ts) : w_assign e ts :=
  wa_cond _ _ (wc_bin _ _ (wb_unary _ _ _ (wu_post _ _ (wp_left _ _ H)))).
Definition left_bin (q : nat) (e : expr) (ts : list tok) (H : w_left e ts) : w_bin q e ts :=
  wb_unary _ _ _ (wu_post _ _ (wp_left _ _ H)).
Definition word (x : string) (f : bool) (H : ident (S_ x) = true) : w_left (EWord (S_ x)) [(f, (Name, S_ x))] :=
  wl_primary _ _ (wr_word _ f H).
Definition lit (e : element) (f : bool) (H : literal e = true) : w_left (ELit e) [(f, e)] := wl_primary _ _ (wr_lit _ f H).
Definition expression (e : expr) (ts : list tok) (H : w_bin 1 e ts) : w_expr e ts := we_one _ _ (wa_cond _ _ (wc_bin _ _ H)).

Definition condition := expression _ _ (wb_op 1 7 (P "<") _ _ _ _ false eq_refl ltac:(auto with arith)
  (left_bin 7 _ _ (word "a" false eq_refl)) (left_bin 8 _ _ (word "b" false eq_refl))).
Definition product := wb_op 10 10 (P "*") _ _ _ _ false eq_refl ltac:(auto with arith)
  (left_bin 10 _ _ (word "b" true eq_refl)) (left_bin 11 _ _ (lit (Number, S_ "2") false eq_refl)).
Definition sum := expression _ _ (wb_op 1 9 (P "+") _ _ _ _ false eq_refl ltac:(auto with arith)
  (left_bin 9 _ _ (word "a" false eq_refl)) product).
Definition entry (e : expr) (ts : list tok) (H : w_left e ts) : w_item e ts := wi_assign _ _ (left_assign _ _ H).
Definition array := wl_member _ (S_ ".") (Name, S_ "y") _ false false (wl_primary _ _ (wr_array _ _ false false (wi_some _ _
  (wi_cons _ _ _ _ false (entry _ _ (word "a" false eq_refl)) (wi_some _ _ (wi_one _ _ (entry _ _ (lit (Text, S_ "'x'") false eq_refl)))))))) eq_refl eq_refl.
Definition assignment := we_one _ _ (wa_assign _ (S_ "=") _ _ _ false (word "b" false eq_refl) eq_refl eq_refl (left_assign _ _ array)).
Definition choice := wt_else true _ _ _ _ _ _ true false false true condition
  (wt_return false _ _ _ true sum eq_refl (wn_semicolon false false)) eq_refl (wt_expr true _ _ _ assignment eq_refl wn_none).
Definition param (x : string) (f : bool) (H : binding (S_ x) = true) : w_elem (PName (S_ x)) [(f, (Name, S_ x))] := wel_pat _ _ (wpa_name _ f H).
Definition function := wt_fun false _ _ _ _ _ _ (wfu _ _ _ _ _ _ _ _ _ (wfh_plain true) (wna_some (S_ "f") false eq_refl)
  (wq _ _ false false (wj_some _ _ (wj_cons _ _ _ _ false (param "a" false eq_refl) (wj_some _ _ (wj_one _ _ (param "b" false eq_refl))))))
  (wd_body _ _ false true (ws_some _ _ _ (ws_one _ _ _ choice)))).
Definition call := wt_expr false _ _ _ (expression _ _ (left_bin 1 _ _
  (wl_call _ _ _ _ false false (word "f" true eq_refl) (wi_some _ _ (wi_one _ _ (entry _ _ (lit (Number, S_ "1") false eq_refl)))))))
  eq_refl (wn_semicolon false false).
Definition increment := wt_expr true _ _ _ (expression _ _ (wb_unary _ _ _ (wu_post _ _ (wp_post _ (S_ "++") _ (word "x" true eq_refl) eq_refl eq_refl))))
  eq_refl wn_none.

Definition w (x : string) := EWord (S_ x).
Definition tree : list stmt :=
  [ SEmpty;
    SFun (Func false false (Some (S_ "f")) [PName (S_ "a"); PName (S_ "b")]
      [ SIf (EBin (S_ "<") (w "a") (w "b"))
          (SReturn (Some (EBin (S_ "+") (w "a") (EBin (S_ "*") (w "b") (ELit (Number, S_ "2"))))))
          (Some (SExpr (EAssign (w "b") (S_ "=") (EMember (EArray [w "a"; ELit (Text, S_ "'x'")]) (S_ ".") (Name, S_ "y"))))) ]);
    SExpr (ECall (w "f") [ELit (Number, S_ "1")]);
    SExpr (EPost (w "x") (S_ "++")) ].

Example C74_program : program tree (lines false source).
Proof.
  exact (ws_some _ _ _ (ws_cons true _ _ _ _ (wt_empty false false)
    (ws_cons true _ _ _ _ function (ws_cons true _ _ _ _ call (ws_one true _ _ increment))))).
Qed.

Example C74_ex : plain ascii ascii None false source = true /\ apart ascii ascii (pieces source) = true
  /\ js_minify (text source) = Ok (S_ "function f(a,b){if(a<b)return a+b*2;else b=[a,'x'].y}f(1);x++").
Proof. vm_compute. repeat split. Qed.

(** The same for the younger parts of the language. *)
Definition modern : list item :=
  [ n "class"; b " "; n "A"; b " "; n "extends"; b " "; n "B"; b " "; p "{"; nl "";
    n "static"; b " "; n "n"; b " "; p "="; b " "; d "0"; p ";"; nl "";
    n "async"; b " "; p "*"; n "go"; p "("; p "{"; b " "; n "x"; p ","; b " "; n "y"; p ":"; b " "; p "["; n "z"; p "]";
    b " "; p "="; b " "; p "["; p "]"; b " "; p "}"; p ","; b " "; p "..."; n "q"; p ")"; b " "; p "{"; nl "";
    n "yield"; p "*"; b " "; n "q"; p ";"; nl ""; p "}"; nl ""; p "}"; nl "";
    n "const"; b " "; n "f"; b " "; p "="; b " "; n "async"; b " "; p "("; n "a"; p ","; b " "; n "c"; b " "; p "="; b " "; d "1"; p ")";
    b " "; p "=>"; b " "; p "{"; nl "";
    n "for"; b " "; p "("; n "const"; b " "; n "k"; b " "; n "of"; b " "; n "a"; p ")"; nl "";
    n "c"; b " "; p "+="; b " "; n "k"; b " "; p "**"; b " "; n "await"; b " "; n "c"; p ";"; nl "";
    n "return"; b " "; p "{"; b " "; n "c"; p ","; b " "; p "..."; n "a"; b " "; p "}"; p ";"; nl ""; p "}"; p ";" ].

Definition modern_tree : list stmt :=
  [ SClass (Class (Some (S_ "A")) (Some (w "B"))
      [ MField true (KName (K "n")) (Some (ELit (Number, S_ "0")));
        MMethod false HAsyncGen (KName (K "go"))
          [PObject [PName (S_ "x"); PKey (KName (K "y")) (PDefault (PArray [PName (S_ "z")]) (EArray []))]; PRest (PName (S_ "q"))]
          [SExpr (EYield true (w "q"))] ]);
    SVar (S_ "const") [(PName (S_ "f"), Some (EArrowBody true [PName (S_ "a"); PDefault (PName (S_ "c")) (ELit (Number, S_ "1"))]
      [ SForIn (S_ "const") (PName (S_ "k")) (S_ "of") (w "a")
          (SExpr (EAssign (w "c") (S_ "+=") (EBin (S_ "**") (w "k") (EPre (S_ "await") (w "c")))));
        SReturn (Some (EObject [OShort (S_ "c"); OSpread (w "a")])) ]))] ].

Definition field := wg_value false true _ _ _ _ _ _ false (wst_yes true) (wke_name (K "n") false eq_refl)
  (left_assign _ _ (lit (Number, S_ "0") false eq_refl)) (wn_semicolon false false).
Definition object := wpa_object _ _ false false (wfi_some _ _ (wfi_cons _ _ _ _ false (wfi_short (S_ "x") false eq_refl)
  (wfi_some _ _ (wfi_one _ _ (wfi_key _ _ _ _ false (wke_name (K "y") false eq_refl)
    (wel_default _ _ _ _ false (wpa_array _ _ false false (wj_some _ _ (wj_one _ _ (param "z" false eq_refl))))
      (left_assign _ _ (wl_primary _ _ (wr_array _ _ false false wi_none))))))))).
Definition yielding := wt_expr true _ _ _ (we_one _ _ (wa_yield_all _ _ true (left_assign _ _ (word "q" false eq_refl)))) eq_refl (wn_semicolon true false).
Definition method := wg_method true false _ _ _ _ _ _ _ _ _ wst_no (wmo_async_gen true) (wke_name (K "go") false eq_refl) eq_refl
  (wq _ _ false false (wj_some _ _ (wj_cons _ _ _ _ false (wel_pat _ _ object) (wj_some _ _ (wj_rest _ _ false (wpa_name (S_ "q") false eq_refl))))))
  (wd_body _ _ false true (ws_some _ _ _ (ws_one _ _ _ yielding))).
Definition class_A := wt_class false _ _ _ _ (wcl _ _ _ _ _ _ false false true (wna_some (S_ "A") false eq_refl)
  (wex_some _ _ false (word "B" false eq_refl)) (wg_cons _ _ _ _ field (wg_one _ _ method))).

Definition power := wa_cond _ _ (wc_bin _ _ (wb_unary _ _ _ (wu_pow _ _ _ _ false (wp_left _ _ (word "k" false eq_refl))
  (wu_pre (K "await") (w "c") _ false eq_refl eq_refl (wu_post _ _ (wp_left _ _ (word "c" false eq_refl))))))).
Definition adding := wt_expr false _ _ _ (we_one _ _ (wa_assign _ (S_ "+=") _ _ _ false (word "c" true eq_refl) eq_refl eq_refl power)) eq_refl (wn_semicolon false false).
Definition loop := wt_for_var false (S_ "const") _ (S_ "of") _ _ _ _ _ true false false false false eq_refl (wpa_name (S_ "k") false eq_refl) eq_refl
  (expression _ _ (left_bin 1 _ _ (word "a" false eq_refl))) adding.
Definition returning := wt_return true _ _ _ true (expression _ _ (left_bin 1 _ _ (wl_primary _ _ (wr_object _ _ false false (wo_some _ _
  (wo_cons _ _ _ _ false (wo_short (S_ "c") false eq_refl) (wo_some _ _ (wo_one _ _ (wo_spread _ _ false (left_assign _ _ (word "a" false eq_refl)))))))))))
  eq_refl (wn_semicolon true false).
Definition arrow := wa_arrow_body true _ _ _ _ _ (was_yes false)
  (war_params _ _ (wq _ _ false false (wj_some _ _ (wj_cons _ _ _ _ false (param "a" false eq_refl) (wj_some _ _ (wj_one _ _
    (wel_default _ _ _ _ false (wpa_name (S_ "c") false eq_refl) (left_assign _ _ (lit (Number, S_ "1") false eq_refl)))))))))
  eq_refl (wd_body _ _ false true (ws_some _ _ _ (ws_cons _ _ _ _ _ loop (ws_one _ _ _ returning)))).
Definition constant := wt_var true (S_ "const") _ _ _ true eq_refl (wv_one _ _ (wv_value _ _ _ _ false (wpa_name (S_ "f") false eq_refl) arrow)) (wn_semicolon true false).

Example C74_modern : program modern_tree (lines false modern).
Proof. exact (ws_some _ _ _ (ws_cons true _ _ _ _ class_A (ws_one true _ _ constant))). Qed.

Example C74_modern_ex : plain ascii ascii None false modern = true /\ apart ascii ascii (pieces modern) = true
  /\ js_minify (text modern) = Ok (S_ "class A extends B{static n=0;async*go({x,y:[z]=[]},...q){yield*q;}}const f=async(a,c=1)=>{for(const k of a)c+=k**await c;return{c,...a};};").
Proof. vm_compute. repeat split. Qed.

(** ** What is left out, and why *)

(** Without the semicolons that the grammar asks for the tree changes or is lost: the value of
    [return], line end, [x] appears, and [a = x], line end, [b = y] is no program any more. *)
Theorem C74_semicolon_refuted :
  ~ (forall l t x, plain ascii ascii None false l = true -> apart ascii ascii (pieces l) = true ->
      es_program ascii ascii (text l) = Some t -> js_minify (text l) = Ok x -> es_program ascii ascii x = Some (drop_empty t))
  /\ (exists l t u x, plain ascii ascii None false l = true /\ apart ascii ascii (pieces l) = true
      /\ es_program ascii ascii (text l) = Some t /\ js_minify (text l) = Ok x /\ es_program ascii ascii x = Some u /\ t <> u).
Proof.
  split.
  - intro H. specialize (H [n "a"; b " "; p "="; b " "; n "x"; nl ""; n "b"; b " "; p "="; b " "; n "y"] _ _ eq_refl eq_refl ltac:(vm_compute; reflexivity) ltac:(vm_compute; reflexivity)).
    vm_compute in H. discriminate H.
  - exists [n "function"; b " "; n "f"; p "("; p ")"; p "{"; n "return"; nl ""; n "x"; p "}"].
    eexists. eexists. eexists. repeat split; try (vm_compute; reflexivity). discriminate.
Qed.

(** Without [apart] the tree changes: [a + ++b] becomes [a+++b], which is [a++ + b]. *)
Theorem C74_apart_refuted : exists l t u x, plain ascii ascii None false l = true /\ program t (lines false l)
  /\ es_program ascii ascii (text l) = Some t /\ js_minify (text l) = Ok x /\ es_program ascii ascii x = Some u /\ t <> u.
Proof.
  exists [n "a"; b " "; p "+"; b " "; p "++"; n "b"]. eexists. eexists. eexists. split; [reflexivity|]. split.
  - exact (ws_some _ _ _ (ws_one true _ _ (wt_expr true _ _ _ (expression _ _ (wb_op 1 9 (P "+") _ _ _ _ false eq_refl ltac:(auto with arith)
      (left_bin 9 _ _ (word "a" false eq_refl))
      (wb_unary 10 _ _ (wu_pre (P "++") (w "b") _ false eq_refl eq_refl (wu_post _ _ (wp_left _ _ (word "b" false eq_refl))))))) eq_refl wn_none))).
  - repeat split; try (vm_compute; reflexivity). discriminate.
Qed.

Print Assumptions C74_js_tree.
Print Assumptions C74_js_tree_apart.
Print Assumptions C74_js_lines.
Print Assumptions C74_unambiguous.
Print Assumptions C74_semicolon_refuted.
Print Assumptions C74_apart_refuted.

(** * JavaScript: cleaning, printing, keywords, variable positions, names

    C06 (JavaScript part) and C26 - C34.  [joined], [separator], [select], [may_drop],
    [may_keep], [declares], [search_from] are in JsUtilSpec. *)
From Coq Require Import String List NArith ZArith Bool Lia ZifyBool ZifyN.
From Verif Require Import Base JsModel JsUtilModel JsUtilSpec JsUtilProofs JsUtilProofs2.
Import ListNotations.
Open Scope N_scope.

(** ** C06: writing the minified source

    A write that succeeds delivered exactly the displayed text; a writer that always accepts
    makes it succeed. *)
Theorem C06_js_write_display : forall s w o,
  js_write s w = Ok (o, true) -> exists d, js_minify s = Ok d /\ o = encode d.
Proof.
  intros s w o H. unfold js_write, js_minify in *. destruct (js_minify_tokens s) as [ts| | |]; try discriminate.
  cbn [obind] in *. injection H as H. apply write_tokens_ok in H. exists (tokens_show ts). auto.
Qed.

Theorem C06_js_write_accept : forall s d,
  js_minify s = Ok d -> forall w, Forall (fun x => x = None) w -> js_write s w = Ok (encode d, true).
Proof.
  intros s d H w F. unfold js_write, js_minify in *. destruct (js_minify_tokens s) as [ts| | |]; try discriminate.
  cbn [obind] in *. injection H as <-. rewrite write_tokens_accept by exact F. reflexivity.
Qed.

(** When the writer refuses some write, what it took is a prefix of the displayed text, except
    that the flags of one regex may follow: after a refused regex body the flags are still
    offered. *)
Theorem C06_js_write_near_prefix : forall s w o b,
  js_write s w = Ok (o, b) ->
  exists d p q f, js_minify s = Ok d /\ o = p ++ f /\ encode d = p ++ q
    /\ In f [[]; S_ "g"; S_ "i"; S_ "gi"] /\ (f <> [] -> b = false).
Proof.
  intros s w o b H. unfold js_write, js_minify in *. destruct (js_minify_tokens s) as [ts| | |]; try discriminate.
  cbn [obind] in *. injection H as H. apply write_tokens_near in H.
  destruct H as (p & q & f & A & B & C & D). exists (tokens_show ts), p, q, f. auto.
Qed.

(** Without flagged regexes it is a prefix. *)
Theorem C06_js_write_prefix : forall s ts w o b,
  js_minify_tokens s = Ok ts ->
  (forall r g i, In (TRegex r g i) ts -> g = false /\ i = false) ->
  js_write s w = Ok (o, b) ->
  exists d q, js_minify s = Ok d /\ encode d = o ++ q.
Proof.
  intros s ts w o b E F H. unfold js_write, js_minify in *. rewrite E in *.
  cbn [obind] in *. injection H as H. apply write_tokens_prefix in H.
  - destruct H as [q Q]. exists (tokens_show ts), q. auto.
  - apply Forall_forall. intros t Ht. destruct t; try reflexivity.
    destruct (F _ _ _ Ht) as [-> ->]. reflexivity.
Qed.

(** The plain prefix claim is false: [x=/a/g] with a writer that refuses the second write. *)
Theorem C06_js_write_prefix_refuted :
  exists s w o d, js_write s w = Ok (o, false) /\ js_minify s = Ok d
    /\ ~ exists q, encode d = o ++ q.
Proof.
  exists (S_ "x=/a/g;"), [None; None; None; Some 0%nat], (S_ "x=/g"), (S_ "x=/a/g;").
  split; [vm_compute; reflexivity|]. split; [vm_compute; reflexivity|].
  intros [q H]. vm_compute in H. discriminate.
Qed.

Example C06_example_js :
  js_minify (S_ "var a = 'b' ; return c") = Ok (S_ "var a='b';return c")
  /\ js_write (S_ "var a = 'b' ; return c") [None; None; Some 0%nat] = Ok (S_ "var ", false).
Proof. vm_compute. auto. Qed.

(** ** C26: clean_tokens *)

Theorem C26_clean_tokens : forall ts, exists semis rest,
  clean_tokens ts = Ok rest
  /\ filter (fun t => negb (useless t)) ts = semis ++ rest
  /\ Forall is_semicolon semis /\ hd_error rest <> Some (TChar SemiColon).
Proof. exact clean_tokens_spec. Qed.

Theorem C26_clean_again : forall ts r, clean_tokens ts = Ok r -> clean_tokens r = Ok r.
Proof. exact clean_tokens_idem. Qed.

Example C26_example :
  clean_tokens [TChar Space; TChar SemiColon; TComment (S_ "c"); TChar SemiColon; TLicense (S_ "l");
                TChar SemiColon; TChar Backline; TOther (S_ "a"); TChar Tab]
  = Ok [TLicense (S_ "l"); TChar SemiColon; TOther (S_ "a")].
Proof. reflexivity. Qed.

(** ** C27: clean_tokens_except

    The result is a selection of the input tokens.  A token the callback refuses to clean
    stays; whitespace and comments the callback agrees to clean go; semicolons the callback
    agrees to clean go at the beginning, before a closing brace and at the end (unless right
    after a kept semicolon); everything else stays. *)
Theorem C27_clean_tokens_except : forall ts f, exists mask,
  length mask = length ts
  /\ clean_tokens_except ts f = Ok (select mask ts)
  /\ forall i t k, nth_error ts i = Some t -> nth_error mask i = Some k ->
     (k = true -> may_keep f (select (firstn i mask) ts) t (skipn (S i) ts))
     /\ (k = false -> may_drop f (select (firstn i mask) ts) t (skipn (S i) ts)).
Proof.
  intros ts f. unfold clean_tokens_except.
  destruct (clean_except_loop_spec (S (length ts)) f ts []) as (out & A & B); [lia|].
  destruct (cleans_mask _ _ _ _ B) as (m & L & -> & P). exists m. auto.
Qed.

Example C27_example :
  clean_tokens_except
    [TChar SemiColon; TOther (S_ "a"); TChar SemiColon; TChar SemiColon; TChar Backline; TChar CloseCurlyBrace;
     TComment (S_ "c"); TOther (S_ "b"); TChar SemiColon; TChar Space]
    (fun t => negb (token_eqb t (TChar Backline)))
  = Ok [TOther (S_ "a"); TChar SemiColon; TChar SemiColon; TChar Backline; TChar CloseCurlyBrace;
        TOther (S_ "b")]
  /\ clean_tokens_except [TOther (S_ "b"); TChar SemiColon; TChar Space] (fun _ => true)
     <> clean_tokens [TOther (S_ "b"); TChar SemiColon; TChar Space].
Proof. split; [reflexivity|discriminate]. Qed.

(** ** C28: clean_token and clean_token_except *)

Theorem C28_clean_token : forall t nx,
  clean_token t nx = false
  <-> (useless t = true \/ (t = TChar SemiColon /\ nx = Some (TChar CloseCurlyBrace))).
Proof. exact clean_token_spec. Qed.

Theorem C28_clean_token_except : forall t nx f,
  clean_token_except t nx f = true
  <-> (f t = false
       \/ (useless t = false /\ ~ (t = TChar SemiColon /\ nx = Some (TChar CloseCurlyBrace)))).
Proof.
  intros t nx f. rewrite clean_token_except_spec. pose proof (clean_token_spec t nx) as H.
  destruct (clean_token t nx), (useless t); intuition congruence.
Qed.

Example C28_example :
  clean_token (TChar SemiColon) (Some (TChar CloseCurlyBrace)) = false
  /\ clean_token (TChar SemiColon) None = true
  /\ clean_token_except (TChar SemiColon) (Some (TChar CloseCurlyBrace)) (fun _ => false) = true.
Proof. auto. Qed.

(** ** C29: replace_tokens_with, for every position *)

Theorem C29_replace_tokens_with : forall ts cb i,
  nth_error (replace_tokens_with ts cb) i =
  match nth_error ts i with
  | Some t => Some (match cb t with Some u => u | None => t end)
  | None => None
  end.
Proof. exact replace_nth. Qed.

Theorem C29_length : forall ts cb, length (replace_tokens_with ts cb) = length ts.
Proof. intros. apply map_length. Qed.

Example C29_example :
  replace_tokens_with [TOther (S_ "a"); TChar Comma; TOther (S_ "b")]
    (fun t => if token_eqb t (TOther (S_ "a")) then Some (TNumber 1) else None)
  = [TNumber 1; TChar Comma; TOther (S_ "b")].
Proof. reflexivity. Qed.

(** ** C30: the printer *)

Theorem C30_print : forall ts, tokens_show ts = joined ts.
Proof. exact tokens_show_joined. Qed.

(** In particular a word is followed by a blank when another word comes next. *)
Theorem C30_words_apart : forall pre a b post,
  word_left a = true -> word_right b = true ->
  exists x y, tokens_show (pre ++ a :: b :: post) = x ++ token_show a ++ [0x20] ++ token_show b ++ y.
Proof.
  intros pre a b post A B. rewrite tokens_show_joined.
  assert (H : exists y, joined (a :: b :: post) = token_show a ++ [0x20] ++ token_show b ++ y).
  { cbn [joined]. unfold separator. rewrite A, B. cbn [andb orb]. eexists. reflexivity. }
  destruct H as [y H]. induction pre as [|t pre (x & y' & IH)]; cbn [app].
  - exists [], y. exact H.
  - assert (E : exists z, joined (t :: pre ++ a :: b :: post) = z ++ joined (pre ++ a :: b :: post)).
    { destruct (pre ++ a :: b :: post) as [|u r]; [exists (token_show t); cbn [joined]; reflexivity|].
      exists (token_show t ++ separator t u). cbn [joined]. rewrite <- app_assoc. reflexivity. }
    destruct E as [z ->]. rewrite IH. exists (z ++ x), y'. rewrite <- app_assoc. reflexivity.
Qed.

Example C30_example :
  tokens_show [TKeyword KReturn; TOther (S_ "a"); TKeyword KIn; TNumber 12; TKeyword KIn; TString (S_ "'x'")]
  = S_ "return a in 12 in'x'".
Proof. vm_compute. reflexivity. Qed.

(** ** C31: pairs the printer glues together

    Reading back the printed text gives other tokens. *)
Definition reads_back (s : str) : Prop :=
  exists ts d, js_minify_tokens s = Ok ts /\ js_minify s = Ok d /\ tokenize d = Ok ts.

Theorem C31_glue_refuted :
  ~ reads_back (S_ "x = = y") /\ ~ reads_back (S_ "a / /b/.c")
  /\ ~ reads_back (S_ "x = 1
y").
Proof.
  repeat split; intros (ts & d & A & B & C); vm_compute in A, B;
    injection A as <-; injection B as <-; vm_compute in C; discriminate.
Qed.

Theorem C31_plus_plus :
  js_minify (S_ "a + +b") = Ok (S_ "a++b") /\ js_minify (S_ "a - -b") = Ok (S_ "a--b").
Proof. vm_compute. auto. Qed.

Theorem C31_number_word : exists s d,
  js_minify s = Ok d /\ s = S_ "x=1
y" /\ d = S_ "x=1y".
Proof. eexists. eexists. split; [|split; reflexivity]. vm_compute. reflexivity. Qed.

Theorem C31_number_dot : js_minify (S_ "1 .toString()") = Ok (S_ "1.toString()").
Proof. vm_compute. reflexivity. Qed.

Theorem C31_created_variable : forall v,
  tokens_show [TKeyword KReturn; TCreatedVar v] = S_ "return" ++ v.
Proof. intro v. rewrite tokens_show_joined. cbn. rewrite !app_nil_r. reflexivity. Qed.

(** ** C32: keywords, characters, operators *)

Definition js_words : list str :=
  map S_ ["break"; "case"; "catch"; "const"; "continue"; "default"; "do"; "else"; "false"; "finally";
          "function"; "for"; "if"; "in"; "instanceof"; "let"; "new"; "null"; "private"; "protected";
          "public"; "return"; "switch"; "this"; "throw"; "true"; "try"; "typeof"; "static"; "var";
          "while"]%string.

Theorem C32_keywords : forall s k, keyword_of s = Some k <-> s = keyword_show k.
Proof.
  intros s k. split; [apply keyword_of_sound|]. intros ->. apply keyword_of_show.
Qed.

Theorem C32_keyword_list : forall s, keyword_of s <> None <-> In s js_words.
Proof.
  intro s. split.
  - destruct (keyword_of s) as [k|] eqn:E; [intros _|congruence].
    apply keyword_of_sound in E. subst s. destruct k; vm_compute; tauto.
  - intros H K. revert H. unfold js_words. cbn [map In]. intro H.
    repeat (destruct H as [H|H]; [subst s; vm_compute in K; discriminate|]). exact H.
Qed.

Theorem C32_chars : forall c k,
  rchar_of c = Some k <-> (rchar_show k = c \/ (c = 0xD /\ k = Backline)).
Proof.
  intros c k. split; [apply rchar_of_sound|].
  intros [<-|[-> ->]]; [apply rchar_of_show|reflexivity].
Qed.

Theorem C32_operators : forall c,
  (forall o, operation_of c = Some o -> operation_show o = [rchar_show c])
  /\ (forall o, condition_of c = Some o -> condition_show o = [rchar_show c])
  /\ (operation_of c = None \/ condition_of c = None).
Proof. intro c. destruct c; repeat split; intros; try discriminate; try congruence; cbn in *; try (injection H as <-; reflexivity); auto. Qed.

Example C32_example :
  keyword_of (S_ "instanceof") = Some KInstanceOf /\ keyword_of (S_ "In") = None
  /\ rchar_of 0x60 = Some BackTick /\ operation_of Slash = Some Divide.
Proof. vm_compute. auto. Qed.

(** ** C33: get_variable_name_and_value_positions

    It always returns; a result is the first declarator at or after the place where the search
    starts, and no result means that there is none. *)
Theorem C33_variable_positions : forall ts pos,
  exists o, get_variable_name_and_value_positions ts pos = Ok o /\
  match o with
  | Some (n, r) =>
      exists start, search_from ts pos start /\ (start <= n)%nat /\ declares ts n r
      /\ forall n' r', (start <= n')%nat -> (n' < n)%nat -> ~ declares ts n' r'
  | None =>
      forall start n' r', search_from ts pos start -> (start <= n')%nat -> ~ declares ts n' r'
  end.
Proof. exact get_variable_spec. Qed.

(** The order of the positions. *)
Theorem C33_in_bounds : forall ts pos n r,
  get_variable_name_and_value_positions ts pos = Ok (Some (n, r)) ->
  (pos <= n < length ts)%nat
  /\ match r with Some v => (n + 1 < v < length ts)%nat | None => True end.
Proof.
  intros ts pos n r H. destruct (get_variable_spec ts pos) as (o & E & Ho).
  rewrite E in H. injection H as ->. destruct Ho as (start & A & B & (C & D) & _).
  destruct C as (t & C & _). assert (n < length ts)%nat by (apply nth_error_Some; congruence).
  split.
  - destruct A as [(k & _ & _ & ->)|(s & _ & _ & -> & _)]; lia.
  - destruct r as [v|]; [|exact I]. destruct D as (e & u & D1 & D2 & D3 & D4 & _).
    assert (v < length ts)%nat by (apply nth_error_Some; congruence). lia.
Qed.

Example C33_example :
  get_variable_name_and_value_positions
    [TKeyword KVar; TChar Space; TOther (S_ "a"); TChar Space; TOperation Equal; TChar Backline; TNumber 1;
     TChar Comma; TOther (S_ "b"); TChar SemiColon] 0 = Ok (Some (2, Some 6))%nat
  /\ get_variable_name_and_value_positions
    [TKeyword KVar; TChar Space; TOther (S_ "a"); TChar Space; TOperation Equal; TChar Backline; TNumber 1;
     TChar Comma; TOther (S_ "b"); TChar SemiColon] 8 = Ok (Some (8, None))%nat.
Proof. vm_compute. auto. Qed.

(** ** C34: names *)

(** The [i]-th generator obtained from [VariableNameGenerator::new(prepend, nb_letter)]. *)
Theorem C34_names_distinct : forall p n i j,
  namegen_show (nth_gen (namegen_new p n) i) = namegen_show (nth_gen (namegen_new p n) j) -> i = j.
Proof. exact names_distinct. Qed.

Theorem C34_names_shape : forall p n i,
  exists l, namegen_show (nth_gen (namegen_new (Some p) n) i) = p ++ l
    /\ Forall (fun c => alnum c = true) l /\ (n <= length l)%nat
    /\ namegen_len (nth_gen (namegen_new (Some p) n) i) = blen (p ++ l).
Proof.
  intros p n i. destruct (new_ok (Some p) n) as [K L].
  destruct (nth_gen_ok _ i K) as (A & B & C & D). exists (letters (nth_gen (namegen_new (Some p) n) i)).
  unfold namegen_show, namegen_len. rewrite D. cbn [namegen_new prepend].
  split; [reflexivity|]. split; [exact A|]. split; [lia|].
  rewrite blen_app. f_equal.
  assert (X : forall l, letters_ok l -> length l = blen l).
  { induction 1 as [|c l Hc Hl IH]; [reflexivity|]. cbn [blen length].
    assert (len_utf8 c = 1%nat); [|lia]. unfold len_utf8.
    replace (c <? 0x80) with true; [reflexivity|]. symmetry. apply N.ltb_lt.
    unfold alnum in Hc. lia. }
  apply X, A.
Qed.

(** Every name with at least [n] letters turns up. *)
Theorem C34_names_complete : forall p n l,
  Forall (fun c => alnum c = true) l -> (n <= length l)%nat -> (1 <= length l)%nat ->
  exists i, namegen_show (nth_gen (namegen_new (Some p) n) i) = p ++ l.
Proof.
  intros p n l H L L1. destruct (names_complete (Some p) n l H L L1) as [i E].
  exists i. unfold namegen_show. rewrite E.
  destruct (nth_gen_ok _ i (proj1 (new_ok (Some p) n))) as (_ & _ & _ & D). rewrite D. reflexivity.
Qed.

Example C34_example :
  map (fun i => namegen_show (nth_gen (namegen_new (Some (S_ "r_")) 2) i)) [0; 1; 61; 62; 3844]%nat
  = map S_ ["r_aa"; "r_ba"; "r_9a"; "r_ab"; "r_aaa"]%string.
Proof. vm_compute. reflexivity. Qed.

Print Assumptions C06_js_write_display.
Print Assumptions C06_js_write_accept.
Print Assumptions C06_js_write_near_prefix.
Print Assumptions C06_js_write_prefix.
Print Assumptions C06_js_write_prefix_refuted.
Print Assumptions C26_clean_tokens.
Print Assumptions C26_clean_again.
Print Assumptions C27_clean_tokens_except.
Print Assumptions C28_clean_token.
Print Assumptions C28_clean_token_except.
Print Assumptions C29_replace_tokens_with.
Print Assumptions C29_length.
Print Assumptions C30_print.
Print Assumptions C30_words_apart.
Print Assumptions C31_glue_refuted.
Print Assumptions C31_plus_plus.
Print Assumptions C31_number_word.
Print Assumptions C31_number_dot.
Print Assumptions C31_created_variable.
Print Assumptions C32_keywords.
Print Assumptions C32_keyword_list.
Print Assumptions C32_chars.
Print Assumptions C32_operators.
Print Assumptions C33_variable_positions.
Print Assumptions C33_in_bounds.
Print Assumptions C34_names_distinct.
Print Assumptions C34_names_shape.
Print Assumptions C34_names_complete.

(** * JavaScript: aggregation of string literals

    C35 - C41.  [aggregation], [declarations], [found], [stands_for] are in JsAggSpec,
    [array_aggregation], [array_declaration], [array_at], [entries] in JsArrSpec. *)
From Coq Require Import String List NArith ZArith Bool Lia ZifyBool ZifyN Arith Permutation.
From Verif Require Import Base JsModel JsUtilModel JsUtilSpec JsUtilProofs JsUtilProofs2 JsLexSpec JsLexProofs3 JsAggModel JsAggSpec
  JsAggProofs3 JsArrSpec JsArrProofs1 JsArrProofs3 JsArrProofs4.
Import ListNotations.
Open Scope N_scope.

(** The iteration order of a hash map is any permutation of its entries. *)
Definition any_order (order : forall A : Type, list A -> list A) : Prop :=
  forall A (l : list A), Permutation (order A l) l.

(** The public functions, by the arguments they are given: a separator or none, a filter or
    none (then every literal may be replaced). *)
Definition into_variables order (ts : list token) (sep : option token) : outcome (list token) :=
  match sep with
  | None => aggregate_strings order ts
  | Some t => aggregate_strings_with_separation order ts t
  end.

Definition into_array order (ts : list token) (name : str) (sep : option token)
  (filter : option (list token -> nat -> bool)) : outcome (list token) :=
  match sep, filter with
  | None, None => aggregate_strings_into_array order ts name
  | Some t, None => aggregate_strings_into_array_with_separation order ts name t
  | None, Some f => aggregate_strings_into_array_filter order ts name f
  | Some t, Some f => aggregate_strings_into_array_with_separation_filter order ts name t f
  end.

Definition allowed (filter : option (list token -> nat -> bool)) : list token -> nat -> bool :=
  match filter with Some f => f | None => fun _ _ => true end.

Lemma into_variables_inner : forall order ts sep, into_variables order ts sep = aggregate_strings_inner order ts sep.
Proof. intros order ts [t|]; reflexivity. Qed.

Lemma into_array_inner : forall order ts name sep filter,
  into_array order ts name sep filter = aggregate_strings_into_array_inner order ts name sep (allowed filter).
Proof. intros order ts name [t|] [f|]; reflexivity. Qed.

(** Source texts for the cases below: the number sign is a double quote. *)
Definition q_ (s : string) : str := map (fun c => if c =? 0x23 then 0x22 else c) (S_ s).

Definition last_first : forall A : Type, list A -> list A := fun _ l => rev l.

Lemma last_first_ok : any_order last_first.
Proof. intros A l. symmetry. apply Permutation_rev. Qed.

(** The usual way to use the functions: tokenize, clean, aggregate, print. *)
Definition printed (f : list token -> outcome (list token)) (s : str) : outcome str :=
  let! ts := tokenize s in let! u := clean_tokens ts in let! v := f u in Ok (tokens_show v).

Definition vars_of (s : str) := printed (aggregate_strings last_first) s.
Definition array_of (name s : str) := printed (fun ts => aggregate_strings_into_array last_first ts name) s.

(** ** C35: the result of aggregate_strings

    The declarations, the separator, then a program of the same length where every token is the
    same, or a literal replaced by the name declared with it, or a literal replaced by the r_
    variable that has it. *)
Theorem C35_aggregate_strings : forall order, any_order order -> forall ts, exists vars ds ts',
  aggregate_strings order ts = Ok (declarations ds ++ ts') /\ aggregation ts vars ds ts'.
Proof. intros order P ts. exact (aggregate_spec order P ts None). Qed.

Theorem C35_with_separation : forall order, any_order order -> forall ts sep, exists vars ds ts',
  aggregate_strings_with_separation order ts sep = Ok (declarations ds ++ sep :: ts')
  /\ aggregation ts vars ds ts'.
Proof. intros order P ts sep. exact (aggregate_spec order P ts (Some sep)). Qed.

(** Without literals nothing happens. *)
Theorem C35_no_literal : forall order, any_order order -> forall ts, (forall s, ~ In (TString s) ts) ->
  aggregate_strings order ts = Ok ts.
Proof.
  intros order P ts N. destruct (C35_aggregate_strings order P ts) as (vars & ds & ts' & E & A). rewrite E.
  assert (D : ds = []).
  { destruct ds as [|[x s] ds]; [reflexivity|]. exfalso.
    destruct (an_pays _ _ _ _ A x s (or_introl eq_refl)) as (_ & O & _). unfold occurrences in O.
    destruct (filter (fun t => match t with TString x0 => str_eqb x0 s | _ => false end) ts) as [|t l] eqn:F; [cbn in O; lia|].
    assert (I : In t (t :: l)) by now left. rewrite <- F in I. apply filter_In in I. destruct I as [I M].
    destruct t; try discriminate M. exact (N _ I). }
  subst ds. cbn [declarations app]. f_equal. symmetry. apply same_tokens; [symmetry; exact (an_length _ _ _ _ A)|].
  intros i t Ht. destruct (an_tokens _ _ _ _ A i t Ht) as (t' & X & Y). rewrite X. f_equal.
  destruct Y; try reflexivity; exfalso; apply nth_error_In in Ht; exact (N _ Ht).
Qed.

(** The tokens keep their role, the program may change its meaning: a variable can be used
    before it has its value, out of its scope, and a property name is not an expression. *)
Theorem C35_meaning_refuted :
  vars_of (q_ "f(#x#);var r_a=#x#;") = Ok (q_ "f(r_a);var r_a=#x#;")
  /\ vars_of (q_ "function f(){var r_a=#x#;return r_a}g(#x#);") = Ok (q_ "function f(){var r_a=#x#;return r_a}g(r_a);")
  /\ vars_of (q_ "a={#long name#:1};b={#long name#:2};")
     = Ok (q_ "var r_aa=#long name#;a={r_aa:1};b={r_aa:2};").
Proof. vm_compute. auto. Qed.

Example C35_case : vars_of (q_ "var x=[#a nice string#,#cake#,#a nice string#],r_b=#cake#;")
  = Ok (q_ "var r_aa=#a nice string#;var x=[r_aa,r_b,r_aa],r_b=#cake#;").
Proof. vm_compute. reflexivity. Qed.

(** ** C36: the new names

    They are different from each other and from the r_ variables that the program declares with
    a value; each is the first name of the generator's sequence that is not in use. *)
Theorem C36_fresh_names : forall order, any_order order -> forall ts sep, exists vars ds ts',
  into_variables order ts sep
  = Ok (declarations ds ++ (match sep with Some t => [t] | None => [] end) ++ ts')
  /\ aggregation ts vars ds ts'
  /\ NoDup (map fst ds)
  /\ (forall x s, In (x, s) ds ->
       (forall n v, found ts n v -> nth_error ts n <> Some (TOther x))
       /\ exists l, x = S_ "r_" ++ l /\ Forall (fun c => alnum c = true) l /\ (2 <= length l)%nat).
Proof.
  intros order P ts sep. destruct (aggregate_spec order P ts sep) as (vars & ds & ts' & E & A).
  exists vars, ds, ts'. rewrite into_variables_inner. split; [exact E|]. split; [exact A|]. split; [exact (an_names _ _ _ _ A)|].
  intros x s I. destruct (an_next _ _ _ _ A x s I) as (k & -> & _).
  destruct (name_shape k) as (l & El & Al & Le). split; [|exists l; auto].
  intros n v F X. apply (an_fresh _ _ _ _ A _ _ I). exists n, v. split; [exact F|]. split; [exact X|]. exists l. exact El.
Qed.

(** Variables that have no value, and parameters, are not looked at. *)
Theorem C36_clash_refuted :
  vars_of (q_ "var r_aa;g(#a nice cake#,#a nice cake#,r_aa);")
  = Ok (q_ "var r_aa=#a nice cake#;var r_aa;g(r_aa,r_aa,r_aa);")
  /\ vars_of (q_ "function f(r_aa){return g(#a nice cake#,#a nice cake#,r_aa)}")
     = Ok (q_ "var r_aa=#a nice cake#;function f(r_aa){return g(r_aa,r_aa,r_aa)}").
Proof. vm_compute. auto. Qed.

Example C36_case : vars_of (q_ "var r_aa=1;g(#a nice cake#,#a nice cake#,#some other text#,#some other text#);")
  = Ok (q_ "var r_ba=#a nice cake#,r_ca=#some other text#;var r_aa=1;g(r_ba,r_ba,r_ca,r_ca);").
Proof. vm_compute. reflexivity. Qed.

(** ** C37: which literals are replaced

    Exactly those that occur twice and fulfil an inequality between lengths ([an_left] gives the
    converse, up to the length of the name that would have been used). *)
Theorem C37_only_if_pays : forall order, any_order order -> forall ts sep, exists vars ds ts',
  into_variables order ts sep
  = Ok (declarations ds ++ (match sep with Some t => [t] | None => [] end) ++ ts')
  /\ aggregation ts vars ds ts'
  /\ (forall x s, In (x, s) ds -> let n := occurrences ts s in
       (2 <= n /\ blen x + blen s + 6 + n * blen x < (n + 2) * blen s)%nat).
Proof.
  intros order P ts sep. destruct (aggregate_spec order P ts sep) as (vars & ds & ts' & E & A).
  exists vars, ds, ts'. rewrite into_variables_inner. split; [exact E|]. split; [exact A|]. intros x s I. exact (proj2 (an_pays _ _ _ _ A x s I)).
Qed.

(** The inequality is not the one that says that the program gets shorter. *)
Theorem C37_shorter_refuted :
  (exists s t, vars_of s = Ok t /\ (blen s < blen t)%nat)
  /\ (exists name s t, array_of name s = Ok t /\ (blen s < blen t)%nat).
Proof.
  split.
  - exists (q_ "f(#cake!#);f(#cake!#);"), (q_ "var r_aa=#cake!#;f(r_aa);f(r_aa);"). vm_compute. auto 20.
  - exists (S_ "R"), (q_ "f(#abcdef#,#abcdef#);"), (q_ "var R=[#abcdef#];f(R[0],R[0]);"). split; vm_compute; [reflexivity|]. auto 20.
Qed.

Example C37_case : vars_of (q_ "f(#cake#,#cake#);") = Ok (q_ "f(#cake#,#cake#);").
Proof. vm_compute. reflexivity. Qed.

(** ** C38: a new array

    For every token list whose string tokens have two delimiters ... *)
Theorem C38_new_array : forall order, any_order order -> forall ts name sep filter, Forall quoted_token ts ->
  (forall p h r, ts = p ++ h ++ r -> array_head name h -> ~ In (TChar CloseBracket) r) ->
  exists news ts',
    into_array order ts name sep filter
    = Ok (match news with
          | [] => ts
          | _ => array_declaration name news ++ (match sep with Some t => [t] | None => [] end) ++ ts'
          end)
    /\ array_aggregation ts (allowed filter) [] name [] news ts'.
Proof. intros order P ts name sep filter Q NA. rewrite into_array_inner. now apply array_new. Qed.

(** ... as those of the tokenizer have. *)
Theorem C38_quoted : forall s ts, lexes s ts -> Forall quoted_token ts.
Proof. exact lexes_quoted. Qed.

(** A token that the filter rejects is never replaced. *)
Theorem C38_filter : forall order, any_order order -> forall ts name sep filter, Forall quoted_token ts ->
  (forall p h r, ts = p ++ h ++ r -> array_head name h -> ~ In (TChar CloseBracket) r) ->
  exists pre ts', into_array order ts name sep filter = Ok (pre ++ ts')
    /\ length ts' = length ts
    /\ forall i t, nth_error ts i = Some t -> allowed filter ts i = false -> nth_error ts' i = Some t.
Proof.
  intros order P ts name sep filter Q NA. destruct (C38_new_array order P ts name sep filter Q NA) as (news & ts' & E & A).
  assert (X : exists pre, into_array order ts name sep filter = Ok (pre ++ ts')).
  { destruct news as [|s news].
    - exists []. rewrite E. cbn [app]. f_equal. apply same_tokens; [symmetry; exact (aa_length _ _ _ _ _ _ _ A)|].
      intros i t Ht. destruct (aa_tokens _ _ _ _ _ _ _ A i t Ht) as (t' & B & C). rewrite B. f_equal.
      inversion C; subst; [|reflexivity]. destruct k; discriminate.
    - eexists. rewrite E. rewrite app_assoc. reflexivity. }
  destruct X as (pre & X). exists pre, ts'. split; [exact X|]. split; [exact (aa_length _ _ _ _ _ _ _ A)|].
  intros i t Ht F. destruct (aa_tokens _ _ _ _ _ _ _ A i t Ht) as (t' & B & C). rewrite B. f_equal.
  inversion C; subst; [|reflexivity]. destruct H as [_ H]. congruence.
Qed.

(** The array that is declared has the elements in order. *)
Theorem C38_elements : forall name news, exists l,
  array_declaration name news = TCreatedVarDecl (S_ "var " ++ name ++ S_ "=") :: TChar OpenBracket :: l
    ++ [TChar CloseBracket; TChar SemiColon]
  /\ entries l news.
Proof.
  intros name news. exists (listed news). split; [reflexivity|].
  apply (entries_added [] [] news). left. split; [constructor|reflexivity].
Qed.

(** String tokens made by hand without delimiters make it panic. *)
Theorem C38_unquoted_refuted : forall order name,
  aggregate_strings_into_array order [TString []] name = Panic
  /\ aggregate_strings_into_array order [TString (0xE9 :: 0xE9 :: [])] name = Panic.
Proof. intros order name. split; reflexivity. Qed.

Example C38_case : array_of (S_ "R") (q_ "f(#a nice text#,'some other text',#a nice text#,#some other text#,#x#,#x#);")
  = Ok (q_ "var R=[#a nice text#,#some other text#];f(R[0],R[1],R[0],R[1],#x#,#x#);").
Proof. vm_compute. reflexivity. Qed.

(** ** C39: an existing array of literals

    The elements stay, the new ones are appended, every reference [name[k]] stands for the
    content of element [k]. *)
Theorem C39_existing_array : forall order, any_order order ->
  forall ts name sep filter pre head body tail olds, Forall quoted_token ts ->
  uninterrupted name ts -> array_at name ts pre head body tail ->
  entries body olds -> (forall x, ~ In (TCreatedVar x) body) ->
  exists news front back body',
    into_array order ts name sep filter
    = Ok (front ++ body' ++ TChar CloseBracket :: back)
    /\ length front = length (pre ++ head)
    /\ (exists more, body' = body ++ more) /\ entries body' (olds ++ news)
    /\ array_aggregation ts (allowed filter) (seq (length (pre ++ head)) (length body)) name olds news
         (front ++ body ++ TChar CloseBracket :: back).
Proof.
  intros order P ts name sep filter pre head body tail olds Q U AT En NC.
  rewrite into_array_inner. destruct (array_existing order P ts name sep (allowed filter) pre head body tail olds Q U AT En NC) as (news & front & back & E & L & A).
  exists news, front, back, (body ++ added olds news). rewrite <- app_assoc. split; [exact E|]. split; [exact L|].
  split; [eauto|]. split; [now apply entries_added|exact A].
Qed.

(** What aggregation takes for an array is one. *)
Theorem C39_array_found : forall ts name x e, get_array ts name = Some (x, e) ->
  exists p h body tail, ts = p ++ h ++ body ++ TChar CloseBracket :: tail /\ array_head name h
    /\ ~ In (TChar CloseBracket) body /\ e = (length p + length h + length body)%nat.
Proof.
  intros ts name x e E. destruct (get_array_sound name ts x e E) as (p & h & body & tail & A & B & C & _ & D).
  exists p, h, body, tail. auto.
Qed.

(** With other elements, holes or a trailing comma the indices are wrong. *)
Theorem C39_other_elements_refuted :
  array_of (S_ "R") (q_ "var R=[1,#a nice text#];f(#a nice text#);") = Ok (q_ "var R=[1,#a nice text#];f(R[0]);")
  /\ array_of (S_ "R") (q_ "var R=[#x#,];f(#a nice text#,#a nice text#);")
     = Ok (q_ "var R=[#x#,,#a nice text#];f(R[1],R[1]);").
Proof. vm_compute. auto. Qed.

(** An array that was made by aggregation is not recognised in the same token list: it is
    declared twice, and the second declaration that is executed is the older one. *)
Theorem C39_twice_refuted :
  printed (fun ts =>
    let! u := aggregate_strings_into_array_filter last_first ts (S_ "R") (fun _ i => Nat.ltb i 5) in
    aggregate_strings_into_array last_first u (S_ "R")) (q_ "f(#a nice text#,#a nice text#,#another text#,#another text#);")
  = Ok (q_ "var R=[#another text#];var R=[#a nice text#];f(R[0],R[0],R[0],R[0]);").
Proof. vm_compute. reflexivity. Qed.

Example C39_case : array_of (S_ "R") (q_ "var R=[#a nice text#,#x#];f(#a nice text#,#another text#,'another text',#x#);")
  = Ok (q_ "var R=[#a nice text#,#x#,#another text#];f(R[0],R[2],R[2],R[1]);").
Proof. vm_compute. reflexivity. Qed.

(** The hypotheses of C39 for that source. *)
Example C39_case_hypotheses : exists ts pre head body tail,
  (let! t := tokenize (q_ "var R=[#x#,#y#];") in clean_tokens t) = Ok ts
  /\ Forall quoted_token ts /\ array_at (S_ "R") ts pre head body tail
  /\ entries body [S_ "x"; S_ "y"] /\ (forall x, ~ In (TCreatedVar x) body).
Proof.
  set (x := TString (q_ "#x#")). set (y := TString (q_ "#y#")).
  set (ts := [TKeyword KVar; TOther (S_ "R"); TOperation Equal; TChar OpenBracket; x; TChar Comma; y; TChar CloseBracket; TChar SemiColon]).
  exists ts, [], (firstn 4 ts), [x; TChar Comma; y], [TChar SemiColon].
  split; [vm_compute; reflexivity|]. split; [|split; [|split]].
  - repeat constructor; intros z E; try discriminate E; injection E as <-;
      [exists 0x22, (S_ "x"), 0x22|exists 0x22, (S_ "y"), 0x22]; repeat split; reflexivity.
  - constructor.
    + reflexivity.
    + exists KVar, [], [], []. split; [now right|]. split; [reflexivity|]. repeat constructor.
    + cbn. intuition discriminate.
    + intros. cbn. lia.
  - right. cbn. apply vs_more; [exact (va_literal (q_ "#x#"))|]. apply vs_one. exact (va_literal (q_ "#y#")).
  - cbn. intuition discriminate.
Qed.

(** ** C40: no dependence on the order of hash maps and sets *)
Theorem C40_variables : forall o1 o2, any_order o1 -> any_order o2 ->
  forall ts sep, into_variables o1 ts sep = into_variables o2 ts sep.
Proof. intros o1 o2 P1 P2 ts sep. rewrite !into_variables_inner. now apply aggregate_order. Qed.

Theorem C40_array : forall o1 o2, any_order o1 -> any_order o2 -> forall ts name sep filter,
  into_array o1 ts name sep filter = into_array o2 ts name sep filter.
Proof. intros o1 o2 P1 P2 ts name sep filter. rewrite !into_array_inner. now apply array_order. Qed.

Example C40_case : any_order last_first /\ any_order (fun _ l => l).
Proof. split; [exact last_first_ok|]. intros A l. reflexivity. Qed.

(** ** C41: literals in an array

    Elements are written between double quotes.  That is the same literal when the quotes were
    double quotes, and a literal with the same content when they were single quotes and the
    content has no double quote; *)
Theorem C41_double_quotes : forall s, element s = TCreatedVar (0x22 :: s ++ [0x22]) /\ token_show (element s) = token_show (TString (0x22 :: s ++ [0x22])).
Proof. intro s. split; reflexivity. Qed.

Theorem C41_single_quotes : forall s, string_body 0x27 s -> mem_char 0x22 s = false ->
  tokenize (token_show (element s)) = Ok [TString (0x22 :: s ++ [0x22])]
  /\ content (0x22 :: s ++ [0x22]) = content (0x27 :: s ++ [0x27]).
Proof.
  intros s B M. split; [|rewrite !content_app; reflexivity].
  change (token_show (element s)) with (([0x22] ++ s ++ [0x22]) ++ []). rewrite app_nil_r. cbn [app].
  apply lexes_tokenize. exists [TString (0x22 :: s ++ [0x22])], []. split; [|reflexivity].
  apply (reads_more _ _ _ [TString (0x22 :: s ++ [0x22])] [] []); [|apply reads_none].
  apply (rd_string [] [] 0x22 s []); [now left|]. now apply requote.
Qed.

(** in the other cases it is not. *)
Theorem C41_requoted_refuted :
  array_of (S_ "R") (q_ "f('say #hi# now','say #hi# now');") = Ok (q_ "var R=[#say #hi# now#];f(R[0],R[0]);")
  /\ array_of (S_ "R") (q_ "f(`a long ${x} text`,`a long ${x} text`);") = Ok (q_ "var R=[#a long ${x} text#];f(R[0],R[0]);")
  /\ array_of (S_ "R") (q_ "f(`a long ${x} text`,#a long ${x} text#);") = Ok (q_ "var R=[#a long ${x} text#];f(R[0],R[0]);").
Proof. vm_compute. auto. Qed.

Print Assumptions C35_aggregate_strings.
Print Assumptions C35_with_separation.
Print Assumptions C35_no_literal.
Print Assumptions C35_meaning_refuted.
Print Assumptions C36_fresh_names.
Print Assumptions C36_clash_refuted.
Print Assumptions C37_only_if_pays.
Print Assumptions C37_shorter_refuted.
Print Assumptions C38_new_array.
Print Assumptions C38_quoted.
Print Assumptions C38_filter.
Print Assumptions C38_elements.
Print Assumptions C38_unquoted_refuted.
Print Assumptions C39_existing_array.
Print Assumptions C39_array_found.
Print Assumptions C39_other_elements_refuted.
Print Assumptions C39_twice_refuted.
Print Assumptions C40_variables.
Print Assumptions C40_array.
Print Assumptions C41_double_quotes.
Print Assumptions C41_single_quotes.
Print Assumptions C41_requoted_refuted.

(** * JavaScript: an engine reads the same tokens from the minified program

    C63.  The engine's tokens ([es_tokens]), [cuts] and [tidy] are in EsSpec.  [start_u] and
    [part_u] are ID_Start and ID_Continue outside ASCII, [goal] is the grammar's decision between
    a division and a regular expression; every theorem holds for all their values. *)
From Coq Require Import String Arith List NArith ZArith Bool Lia.
From Verif Require Import Base JsModel JsUtilModel JsUtilSpec JsLexSpec JsLexProofs3 JsLexProofs4 JsRoundProofs1 JsRoundProofs2 JsRoundProofs3
  EsSpec EsProofs1 EsProofs2.
Import ListNotations.
Open Scope N_scope.

(** ** C63 *)
Theorem C63_es_tokens : forall start_u part_u goal s ts ps o,
  tokenize s = Ok ts -> cuts ps s ts -> js_minify s = Ok o -> tidy start_u part_u goal start ps ->
  exists l, es_tokens start_u part_u goal s = Some l /\ es_tokens start_u part_u goal o = Some l.
Proof. exact same_tokens. Qed.

(** Every source that is read to its end falls into such parts. *)
Definition add_gap (p : str) (ps : list part) : list part :=
  match ps with Gap g :: r => Gap (p ++ g) :: r | _ => Gap p :: ps end.
Definition add_code (p : str) (t : token) (ps : list part) : list part :=
  match ps with Code c ts :: r => Code (p ++ c) (t :: ts) :: r | _ => Code p [t] :: ps end.
Fixpoint parts (l : list (str * token)) : list part :=
  match l with
  | [] => []
  | (p, t) :: r => if useless t then add_gap p (parts r) else add_code p t (parts r)
  end.

Lemma parts_turns : forall l, Forall (fun x => fst x <> [] /\ (useless (snd x) = false -> token_show (snd x) <> [])) l -> take_turns (parts l).
Proof.
  induction l as [|[p t] l IH]; intros F; [exact I|]. inversion F as [|? ? [F1 F0] F2]. subst. cbn [fst snd] in F1, F0. specialize (IH F2). cbn [parts].
  destruct (useless t).
  - unfold add_gap. destruct (parts l) as [|[g|c ts] r]; cbn [take_turns] in *.
    + auto.
    + destruct IH as (A & B & C). repeat split; try assumption. destruct p; [congruence|discriminate].
    + auto.
  - unfold add_code. specialize (F0 eq_refl). destruct (parts l) as [|[g|c ts] r]; cbn [take_turns] in *.
    + split; [exact F1|]. split; [discriminate|]. split; [now constructor|]. auto.
    + split; [exact F1|]. split; [discriminate|]. split; [now constructor|]. tauto.
    + destruct IH as (A & B & C & D & E). split; [destruct p; [congruence|discriminate]|]. split; [discriminate|]. split; [now constructor|]. auto.
Qed.

Lemma parts_text : forall l, flat_map part_text (parts l) = concat (map fst l).
Proof.
  induction l as [|[p t] l IH]; [reflexivity|]. cbn [parts map concat fst]. rewrite <- IH. destruct (useless t).
  - unfold add_gap. destruct (parts l) as [|[g|c ts] r]; cbn [flat_map part_text]; [reflexivity|rewrite <- app_assoc; reflexivity|reflexivity].
  - unfold add_code. destruct (parts l) as [|[g|c ts] r]; cbn [flat_map part_text]; [reflexivity|reflexivity|rewrite <- app_assoc; reflexivity].
Qed.

Lemma parts_tokens : forall l, flat_map part_tokens (parts l) = filter (fun t => negb (useless t)) (map snd l).
Proof.
  induction l as [|[p t] l IH]; [reflexivity|]. cbn [parts map snd filter]. rewrite <- IH. destruct (useless t); cbn [negb].
  - unfold add_gap. destruct (parts l) as [|[g|c ts] r]; reflexivity.
  - unfold add_code. destruct (parts l) as [|[g|c ts] r]; reflexivity.
Qed.

Theorem C63_parts : forall s ts, lexes s ts -> tokenize s = Ok ts /\ exists ps, cuts ps s ts.
Proof.
  intros s ts L. split; [exact (lexes_tokenize s ts L)|].
  destruct (lexes_tiles s ts L) as (ps & C & F). destruct (lexes_known s ts L) as [K _]. exists (parts (combine ps ts)). rewrite Forall_forall in K. split; [|split].
  - rewrite parts_text, <- C. f_equal. clear - F. induction F as [|p t ps ts H F IH]; [reflexivity|]. cbn [combine map fst]. now f_equal.
  - rewrite parts_tokens. f_equal. clear - F. induction F as [|p t ps ts H F IH]; [reflexivity|]. cbn [combine map snd]. now f_equal.
  - apply parts_turns. assert (Q : forall x, In x ts -> useless x = false -> token_show x <> []) by (intros x I; exact (readable_text x (K x I))). clear - F Q.
    induction F as [|p t ps ts H F IH]; [constructor|]. cbn [combine]. constructor; [split; [exact (spells_nonempty p t H)|apply Q; now left]|]. apply IH. intros x I. apply Q. now right.
Qed.

(** ** A test for tidy sources *)

(** The text of a token at the beginning of [s]. *)
Definition written (s : str) (t : token) : str :=
  match t with
  | TComment b => match s with _ :: c :: _ => if c =? 0x2F then firstn (3 + length b) s else firstn (4 + length b) s | _ => s end
  | TChar Backline => firstn 1 s
  | _ => token_show t
  end.
Fixpoint pieces (s : str) (ts : list token) : list (str * token) :=
  match ts with [] => [] | t :: r => (written s t, t) :: pieces (skipn (length (written s t)) s) r end.

Section Test.
Variables start_u part_u : N -> bool.
Variable goal : list element -> bool.

Fixpoint tidy_b (st : state) (ps : list part) : bool :=
  match ps with
  | [] => true
  | Gap g :: r =>
      match es_read start_u part_u goal st g with
      | Some (l, _) => forallb (fun e => negb (matters e)) l && negb (runs_on start_u part_u (last_of l) (upcoming r)) && tidy_b st r
      | None => false
      end
  | Code c ts :: r =>
      match es_read start_u part_u goal st c with
      | Some (l, st') =>
          str_eqb (joined ts) c && negb (runs_on start_u part_u (last_of l) (upcoming r))
          && match behind_gap r with
             | Some (c', t') => match separator (last ts (TChar Space)) t' with [] => negb (runs_on start_u part_u (last_of l) c') | _ => true end
             | None => true
             end
          && tidy_b st' r
      | None => false
      end
  end.

Lemma gap_state : forall n st g l st', read start_u part_u goal n st g = Some (l, st') -> forallb (fun e => negb (matters e)) l = true -> st' = st.
Proof.
  induction n as [|n IH]; intros st g l st' H F; (destruct g as [|c g]; [rewrite read_nil in H; injection H as <- <-; reflexivity|]); [discriminate H|].
  rewrite read_step in H. destruct (scan_at start_u part_u goal st (c :: g)) as [[e r]|]; [|discriminate H].
  destruct (read start_u part_u goal n (next st e) r) as [[l' st1]|] eqn:E; [|discriminate H]. injection H as <- <-.
  cbn [forallb] in F. apply andb_true_iff in F. destruct F as [F1 F2]. rewrite (IH _ _ _ _ E F2). unfold next. apply negb_true_iff in F1. rewrite F1. reflexivity.
Qed.

Lemma tidy_sound : forall ps st, tidy_b st ps = true -> tidy start_u part_u goal st ps.
Proof.
  induction ps as [|[g|c ts] r IH]; intros st H; [exact I| |]; cbn [tidy_b] in H; cbn [tidy].
  - destruct (es_read start_u part_u goal st g) as [[l st']|] eqn:E; [|discriminate H]. apply andb_true_iff in H. destruct H as [H H3]. apply andb_true_iff in H. destruct H as [H1 H2].
    exists l. pose proof (gap_state _ _ _ _ _ E H1) as ->. apply negb_true_iff in H2. auto.
  - destruct (es_read start_u part_u goal st c) as [[l st']|] eqn:E; [|discriminate H]. apply andb_true_iff in H. destruct H as [H H4]. apply andb_true_iff in H. destruct H as [H H3].
    apply andb_true_iff in H. destruct H as [H1 H2]. exists l, st'. apply str_eqb_eq in H1. apply negb_true_iff in H2.
    split; [reflexivity|]. split; [exact H1|]. split; [exact H2|]. split; [|now apply IH].
    intros c' t' B S. rewrite B, S in H3. now apply negb_true_iff in H3.
Qed.
End Test.

(** ** A program *)

(** No letters outside ASCII; a regular expression may start after punctuation other than a
    closing bracket, and after a few keywords. *)
Definition ascii_only (c : N) : bool := false.
Definition simple_goal (l : list element) : bool :=
  match l with
  | [] => true
  | (Punct, p) :: _ => negb (existsb (str_eqb p) [S_ ")"; S_ "]"; S_ "}"; S_ "++"; S_ "--"])
  | (Name, n) :: _ => existsb (str_eqb n) [S_ "return"; S_ "typeof"; S_ "case"]
  | _ => false
  end.

Definition program : str :=
  S_ "/*! lib */ ; ; const f = (a, b) => {" ++ [0xA]
  ++ S_ "  // the sum" ++ [0xA]
  ++ S_ "  return a?.x ?? `${ a } : ${ b + 1 }` + 'q r' ;" ++ [0xA; 0xA]
  ++ S_ "} ;" ++ [0xA]
  ++ S_ "let r = /[a-z ]+/gi . exec ( f ( 1.5e3 , ... y, .5 ) ) /* half */ / 2 ;" ++ [0xD; 0xA]
  ++ S_ "for (const k in o) { x **= - k >>> 0xFF ; z . #p &&= ! k }" ++ [0xA].

Definition program_tokens : list token := match tokenize program with Ok ts => ts | _ => [] end.
Definition program_parts : list part := parts (pieces program program_tokens).

Example C63_case : exists o,
  tokenize program = Ok program_tokens /\ cuts program_parts program program_tokens
  /\ js_minify program = Ok o /\ tidy ascii_only ascii_only simple_goal start program_parts
  /\ o = S_ "/*! lib */;;const f=(a,b)=>{return a?.x??`${ a } : ${ b + 1 }`+'q r';};let r=/[a-z ]+/gi.exec(f(1.5e3,...y,.5))/2;for(const k in o){x**=-k>>>0xFF;z.#p&&=!k}"
  /\ match es_tokens ascii_only ascii_only simple_goal o with Some l => length l = 69%nat | None => False end.
Proof.
  eexists. split; [vm_compute; reflexivity|]. split; [|split; [vm_compute; reflexivity|]].
  - split; [vm_compute; reflexivity|]. split; [vm_compute; reflexivity|].
    let p := eval vm_compute in program_parts in change program_parts with p. cbn [take_turns].
    repeat first [exact I | split; [first [discriminate | repeat (constructor; [discriminate|]); constructor | exact I]|]].
  - split; [apply tidy_sound; vm_compute; reflexivity|]. split; [reflexivity|]. vm_compute. reflexivity.
Qed.

(** ** Other programs

    In each of these a real engine reads different tokens from the result: two operators become
    one, a division before a regular expression becomes a comment, a number swallows a full stop,
    the word nan (a number for the tokenizer) swallows its neighbour, a regular expression behind
    a keyword or a bracket loses blanks, and flags and exponents are written differently. *)
Definition untidy : list (str * str) :=
  [(S_ "a + +b", S_ "a++b");
   (S_ "a - --b", S_ "a---b");
   (S_ "x = a / /b/g", S_ "x=a//b/g");
   (S_ "x = 1 .toFixed()", S_ "x=1.toFixed()");
   (S_ "for(nan of y)z", S_ "for(nanof y)z");
   (S_ "return /a  b/ . test(x)", S_ "return/a b/.test(x)");
   (S_ "x=/x/ig", S_ "x=/x/gi");
   (S_ "x=1e+007", S_ "x=1e+7")].
Theorem C63_untidy_refuted : forall s o, In (s, o) untidy ->
  js_minify s = Ok o
  /\ exists l, es_tokens ascii_only ascii_only simple_goal s = Some l /\ es_tokens ascii_only ascii_only simple_goal o <> Some l.
Proof.
  intros s o I. unfold untidy in I. cbn [In] in I.
  repeat (destruct I as [I|I]; [injection I as <- <-; split; [vm_compute; reflexivity|]; eexists; split; [vm_compute; reflexivity|vm_compute; discriminate]|]).
  destruct I.
Qed.

Print Assumptions C63_es_tokens.
Print Assumptions C63_parts.
Print Assumptions C63_untidy_refuted.

(** Specification of the documented way to aggregate literals: the text is read back and the
    names are replaced by what they are declared with.

    Uses [token], [occurrences] (JsAggSpec), [wordy] (JsRoundSpec), [is_in] (JsUtilSpec) and the
    functions of the model in the order of the documentation. *)
From Coq Require Import String Arith List NArith Bool.
From Verif Require Import Base JsModel JsUtilModel JsUtilSpec JsAggModel JsAggSpec JsArrSpec JsLexSpec JsRoundSpec.
Import ListNotations.
Open Scope N_scope.

(** The example in the documentation of aggregate_strings (tools.rs 337-350): simple_minify
    (tools.rs 618-620), apply (token.rs 1063-1071) twice, to_string. *)
Definition documented (order : forall A : Type, list A -> list A) (s : str) : outcome str :=
  let! ts := tokenize s in let! u := aggregate_strings order ts in let! v := clean_tokens u in
  Ok (tokens_show v).

(** The other order. *)
Definition clean_first (order : forall A : Type, list A -> list A) (s : str) : outcome str :=
  let! ts := tokenize s in let! u := clean_tokens ts in let! v := aggregate_strings order u in
  Ok (tokens_show v).

(** [var x=s,y=t;] *)
Definition declarator (d : str * str) : list token := [TOther (fst d); TOperation Equal; TString (snd d)].

Definition declared (ds : list (str * str)) : list token :=
  match ds with
  | [] => []
  | d :: r => TKeyword KVar :: declarator d ++ flat_map (fun d => TChar Comma :: declarator d) r
              ++ [TChar SemiColon]
  end.

(** The names of [ds] replaced by the literals they are declared with. *)
Fixpoint value_of (ds : list (str * str)) (x : str) : option str :=
  match ds with
  | [] => None
  | (y, s) :: r => if str_eqb x y then Some s else value_of r x
  end.

Definition inlined (ds : list (str * str)) (ts : list token) : list token :=
  map (fun t => match t with
                | TOther x => match value_of ds x with Some s => TString s | None => t end
                | _ => t
                end) ts.

(** The program uses no name that starts with r_ . *)
Definition no_r_names (ts : list token) : Prop := forall y, ~ In (TOther (S_ "r_" ++ y)) ts.

(** A literal that is there twice. *)
Definition twice (ts : list token) (t : token) : bool :=
  match t with TString s => (2 <=? occurrences ts s)%nat | _ => false end.

(** No such literal follows a word or another one, and none is followed by a word other than
    [in] and [instanceof]. *)
Fixpoint clear_of_words (ts l : list token) : bool :=
  match l with
  | a :: ((b :: _) as r) =>
      negb (twice ts b && (wordy a || twice ts a)) && negb (twice ts a && wordy b && negb (is_in b))
      && clear_of_words ts r
  | _ => true
  end.

(** ** Into an array *)

(** The example in the documentation of aggregate_strings_into_array (tools.rs 570-583). *)
Definition documented_array (order : forall A : Type, list A -> list A) (name s : str) : outcome str :=
  let! ts := tokenize s in let! u := aggregate_strings_into_array order ts name in
  let! v := clean_tokens u in Ok (tokens_show v).

(** The other order. *)
Definition clean_first_array (order : forall A : Type, list A -> list A) (name s : str) : outcome str :=
  let! ts := tokenize s in let! u := clean_tokens ts in
  let! v := aggregate_strings_into_array order u name in Ok (tokens_show v).

(** The name is one for the tokenizer: letters, digits, underscores and dollar signs, not
    starting with a digit, and nothing else to the tokenizer. *)
Definition array_name (name : str) : Prop :=
  Forall (fun c => alnum c = true \/ c = 0x5F \/ c = 0x24) name
  /\ (forall c r, name = c :: r -> is_digit c = false)
  /\ tokenize name = Ok [TOther name].

(** [var name=[s0,s1];] with double quotes. *)
Definition double_quoted (s : str) : token := TString (0x22 :: s ++ [0x22]).

Fixpoint commas (l : list token) : list token :=
  match l with
  | [] => []
  | [t] => [t]
  | t :: r => t :: TChar Comma :: commas r
  end.

Definition declared_array (name : str) (elems : list str) : list token :=
  match elems with
  | [] => []
  | _ => [TKeyword KVar; TOther name; TOperation Equal; TChar OpenBracket]
         ++ commas (map double_quoted elems) ++ [TChar CloseBracket; TChar SemiColon]
  end.

(** [name[k]] replaced by element [k]. *)
Fixpoint looked_up (name : str) (elems : list str) (ts : list token) : list token :=
  match ts with
  | [] => []
  | t :: r =>
      match t, r with
      | TOther x, TChar OpenBracket :: TNumber n :: TChar CloseBracket :: r' =>
          match (if str_eqb x name then nth_error elems (N.to_nat n) else None) with
          | Some s => double_quoted s :: looked_up name elems r'
          | None => t :: looked_up name elems r
          end
      | _, _ => t :: looked_up name elems r
      end
  end.

(** A literal whose content is there twice. *)
Definition contents (ts : list token) : list str :=
  flat_map (fun t => match t with TString x => [content x] | _ => [] end) ts.

Definition shared (ts : list token) (t : token) : bool :=
  match t with
  | TString x => (2 <=? length (filter (str_eqb (content x)) (contents ts)))%nat
  | _ => false
  end.

(** Such a literal is not a template and can be written between double quotes. *)
Definition requotable (ts : list token) : Prop :=
  forall x, In (TString x) ts -> shared ts (TString x) = true ->
  hd_error x <> Some 0x60 /\ string_body 0x22 (content x).

(** It follows no word, regular expression or other such literal, and neither [in] nor
    [instanceof] follows. *)
Fixpoint clear_for_array (ts l : list token) : bool :=
  match l with
  | a :: ((b :: _) as r) =>
      negb (shared ts b && (wordy a || match a with TRegex _ _ _ => true | _ => false end || shared ts a))
      && negb (shared ts a && is_in b)
      && clear_for_array ts r
  | _ => true
  end.

(** The same tokens, up to the quotation marks of literals that are not templates. *)
Definition same_content (t t' : token) : Prop :=
  t = t' \/ exists x, t = TString x /\ hd_error x <> Some 0x60 /\ t' = double_quoted (content x).

(** Specification of the aggregation of string literals into an array. *)
From Coq Require Import String List NArith ZArith Bool.
From Verif Require Import Base JsModel.
Import ListNotations.
Open Scope N_scope.

(** ** Literals

    The text between the two delimiters. *)
Definition content (t : str) : str := removelast (tl t).

(** A literal between two delimiters of one byte. *)
Definition quoted (t : str) : Prop := exists a s b, t = a :: s ++ [b] /\ a < 0x80 /\ b < 0x80.

Definition quoted_token (t : token) : Prop := forall x, t = TString x -> quoted x.

(** ** Where literals may be replaced

    [old] are the positions of the elements of the existing array. *)
Definition eligible (ts : list token) (filter : list token -> nat -> bool) (old : list nat) (i : nat) : Prop :=
  ~ In i old /\ filter ts i = true.

(** Number of eligible literals with the content [s]. *)
Definition uses (ts : list token) (filter : list token -> nat -> bool) (old : list nat) (s : str) : nat :=
  length (List.filter (fun i =>
    match nth_error ts i with
    | Some (TString t) => str_eqb (content t) s && negb (existsb (Nat.eqb i) old) && filter ts i
    | _ => false
    end) (seq 0 (length ts))).

(** ** References and elements *)

(** An index in decimal digits. *)
Definition index_text (k : nat) : str := number_show (N.of_nat k).

Definition reference (name : str) (k : nat) : token := TCreatedVar (name ++ S_ "[" ++ index_text k ++ S_ "]").

(** Elements are written with double quotes. *)
Definition element (s : str) : token := TCreatedVar ([0x22] ++ s ++ [0x22]).

(** [s0, s1, s2] and [, s0, s1, s2] *)
Definition appended (l : list str) : list token := concat (map (fun s => [TChar Comma; element s]) l).
Definition listed (l : list str) : list token := match l with [] => [] | s :: r => element s :: appended r end.

(** The condition under which [n] uses of [s] are replaced when the next index is [k]
    (lengths in bytes). *)
Definition pays_array (name : str) (n : nat) (s : str) (k : nat) : Prop :=
  ((blen name + blen (index_text k) + 2) * n + blen (index_text k) + 2 < blen s * n)%nat.

(** [indexed ts filter old name elems i t t']: the token [t] at [i] is [t'] afterwards, the
    array having the elements [elems]. *)
Inductive indexed (ts : list token) (filter : list token -> nat -> bool) (old : list nat) (name : str)
  (elems : list str) (i : nat) : token -> token -> Prop :=
| ix_element : forall t k, eligible ts filter old i -> nth_error elems k = Some (content t) ->
    indexed ts filter old name elems i (TString t) (reference name k)
| ix_other : forall t, (forall x, t = TString x -> ~ (eligible ts filter old i /\ In (content x) elems)) ->
    indexed ts filter old name elems i t t.

(** The whole result: [olds] are the elements of the existing array, [news] the new ones,
    [ts'] the program without the new elements. *)
Record array_aggregation (ts : list token) (filter : list token -> nat -> bool) (old : list nat) (name : str)
  (olds news : list str) (ts' : list token) : Prop := {
  aa_length : length ts' = length ts;
  aa_tokens : forall i t, nth_error ts i = Some t ->
    exists t', nth_error ts' i = Some t' /\ indexed ts filter old name (olds ++ news) i t t';
  aa_news : NoDup news;
  aa_not_old : forall s, In s news -> ~ In s olds;
  aa_pays : forall k s, nth_error news k = Some s ->
    (2 <= uses ts filter old s)%nat /\ pays_array name (uses ts filter old s) s (length olds + k);
  aa_left : forall s, ~ In s olds -> ~ In s news -> (2 <= uses ts filter old s)%nat ->
    exists k, (k <= length news)%nat /\ ~ pays_array name (uses ts filter old s) s (length olds + k)
}.

(** The declaration of a new array. *)
Definition array_declaration (name : str) (news : list str) : list token :=
  [TCreatedVarDecl (S_ "var " ++ name ++ S_ "="); TChar OpenBracket] ++ listed news
  ++ [TChar CloseBracket; TChar SemiColon].

(** ** An existing array

    [array_head name l]: the tokens [l] are [let] or [var], the name, the equal sign and the
    opening bracket, with blanks and comments between them. *)
Definition blank (t : token) : bool :=
  match t with TComment _ => true | TChar c => rchar_white c | _ => false end.

Definition blanks (l : list token) : Prop := Forall (fun t => blank t = true) l.

Definition array_head (name : str) (l : list token) : Prop :=
  exists kw b1 b2 b3, (kw = KLet \/ kw = KVar)
    /\ l = TKeyword kw :: b1 ++ TOther name :: b2 ++ TOperation Equal :: b3 ++ [TChar OpenBracket]
    /\ blanks b1 /\ blanks b2 /\ blanks b3.

(** The first array of that name: [ts] is [pre], the head, the body and the rest, and the
    body goes to the first closing bracket. *)
Record array_at (name : str) (ts pre head body tail : list token) : Prop := {
  at_split : ts = pre ++ head ++ body ++ TChar CloseBracket :: tail;
  at_head : array_head name head;
  at_body : ~ In (TChar CloseBracket) body;
  at_first : forall p h r, ts = p ++ h ++ r -> array_head name h -> (length pre <= length p)%nat
}.

(** The declaration of an array, begun. *)
Definition begun (name : str) (l : list token) : Prop :=
  exists kw b1 b2 b3, (kw = KLet \/ kw = KVar) /\ blanks b1 /\ blanks b2 /\ blanks b3
    /\ (l = TKeyword kw :: b1
        \/ l = TKeyword kw :: b1 ++ TOther name :: b2
        \/ l = TKeyword kw :: b1 ++ TOther name :: b2 ++ TOperation Equal :: b3).

(** No [let] or [var] comes where the name, the equal sign or the value of a declaration is
    expected. *)
Definition uninterrupted (name : str) (ts : list token) : Prop :=
  forall p l kw r, begun name l -> (kw = KLet \/ kw = KVar) -> ts <> p ++ l ++ TKeyword kw :: r.

(** The elements of an array of literals: literals separated by single commas. *)
Inductive value : token -> str -> Prop :=
| va_literal : forall t, value (TString t) (content t)
| va_element : forall s, value (element s) s.

Inductive values : list token -> list str -> Prop :=
| vs_one : forall t s, value t s -> values [t] [s]
| vs_more : forall t s l ss, value t s -> values l ss -> values (t :: TChar Comma :: l) (s :: ss).

(** [entries l ss]: between brackets, [l] is the array of the literals [ss]. *)
Definition entries (l : list token) (ss : list str) : Prop :=
  (blanks l /\ ss = []) \/ values (List.filter (fun t => negb (blank t)) l) ss.

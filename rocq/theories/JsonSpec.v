(** Specification vocabulary for JSON, independent of the minifier: the grammar of
    json.org / RFC 8259 as a relation between values and texts. *)
From Coq Require Import String List NArith Bool.
From Verif Require Import Base.
Import ListNotations.
Open Scope N_scope.

Definition q : N := 0x22.
Definition bs : N := 0x5C.

(** ASCII text for examples: the apostrophe stands for the double quote. *)
Definition J_ (s : string) : str := map (fun c => if c =? 0x27 then q else c) (S_ s).

(** JSON values. Numbers, [true], [false] and [null] are kept as their text;
    strings as the text between the quotes (so escapes are not interpreted:
    preservation of this text is stronger than preservation of the value). *)
Inductive jval :=
| JLit (l : str)
| JStr (c : str)
| JArr (vs : list jval)
| JObj (ms : list (str * jval)).

(** Insignificant whitespace of RFC 8259. *)
Definition json_ws (c : N) : bool := (c =? 0x20) || (c =? 9) || (c =? 10) || (c =? 13).
Definition ws (s : str) : Prop := Forall (fun c => json_ws c = true) s.

Definition digit (c : N) : bool := (0x30 <=? c) && (c <=? 0x39).
Definition hex (c : N) : bool :=
  digit c || ((0x41 <=? c) && (c <=? 0x46)) || ((0x61 <=? c) && (c <=? 0x66)).

(** Text between the quotes of a string literal. *)
Inductive content : str -> Prop :=
| ct_nil : content []
| ct_plain : forall c r, 0x20 <= c -> c <> q -> c <> bs -> content r -> content (c :: r)
| ct_esc : forall e r, In e (J_ "'\/bfnrt") -> content r -> content (bs :: e :: r)
| ct_u : forall a b c d r,
    hex a = true -> hex b = true -> hex c = true -> hex d = true ->
    content r -> content (bs :: 0x75 :: a :: b :: c :: d :: r).

(** Numbers. *)
Definition digits1 (s : str) : Prop := s <> [] /\ Forall (fun c => digit c = true) s.
Inductive integer : str -> Prop :=
| int_zero : integer [0x30]
| int_pos : forall d r, digit d = true -> d <> 0x30 ->
    Forall (fun c => digit c = true) r -> integer (d :: r).
Inductive fraction : str -> Prop :=
| fr_none : fraction []
| fr_some : forall ds, digits1 ds -> fraction (0x2E :: ds).
Inductive exponent : str -> Prop :=
| ex_none : exponent []
| ex_some : forall e sg ds, In e (S_ "eE") -> In sg [[]; S_ "+"; S_ "-"] -> digits1 ds ->
    exponent (e :: sg ++ ds).
Definition number (s : str) : Prop :=
  exists m i f e, In m [[]; S_ "-"] /\ integer i /\ fraction f /\ exponent e /\
                  s = m ++ i ++ f ++ e.
Definition literal (s : str) : Prop :=
  number s \/ s = S_ "true" \/ s = S_ "false" \/ s = S_ "null".

(** Texts of values: [value_text v t] for json.org's "value", [element_text] for
    "element" (a value with whitespace around it), [elements_text] and
    [members_text] for the comma separated lists. *)
Inductive value_text : jval -> str -> Prop :=
| vt_lit : forall l, literal l -> value_text (JLit l) l
| vt_str : forall c, content c -> value_text (JStr c) (q :: c ++ [q])
| vt_arr0 : forall w, ws w -> value_text (JArr []) (S_ "[" ++ w ++ S_ "]")
| vt_arr : forall vs t, elements_text vs t -> value_text (JArr vs) (S_ "[" ++ t ++ S_ "]")
| vt_obj0 : forall w, ws w -> value_text (JObj []) (S_ "{" ++ w ++ S_ "}")
| vt_obj : forall ms t, members_text ms t -> value_text (JObj ms) (S_ "{" ++ t ++ S_ "}")
with element_text : jval -> str -> Prop :=
| et : forall v w1 t w2, ws w1 -> value_text v t -> ws w2 -> element_text v (w1 ++ t ++ w2)
with elements_text : list jval -> str -> Prop :=
| est_one : forall v t, element_text v t -> elements_text [v] t
| est_cons : forall v t vs ts, element_text v t -> elements_text vs ts ->
    elements_text (v :: vs) (t ++ S_ "," ++ ts)
with member_text : str * jval -> str -> Prop :=
| mt : forall c v w1 w2 t, ws w1 -> content c -> ws w2 -> element_text v t ->
    member_text (c, v) (w1 ++ (q :: c ++ [q]) ++ w2 ++ S_ ":" ++ t)
with members_text : list (str * jval) -> str -> Prop :=
| mst_one : forall m t, member_text m t -> members_text [m] t
| mst_cons : forall m t ms ts, member_text m t -> members_text ms ts ->
    members_text (m :: ms) (t ++ S_ "," ++ ts).

(** [s] is a JSON document with value [v]. *)
Definition json_document (v : jval) (s : str) : Prop := element_text v s.

(** The text without any insignificant whitespace. *)
Fixpoint compact (v : jval) : str :=
  match v with
  | JLit l => l
  | JStr c => q :: c ++ [q]
  | JArr vs =>
      S_ "[" ++
      (fix go (l : list jval) : str :=
         match l with
         | [] => []
         | [x] => compact x
         | x :: r => compact x ++ S_ "," ++ go r
         end) vs ++ S_ "]"
  | JObj ms =>
      S_ "{" ++
      (fix go (l : list (str * jval)) : str :=
         match l with
         | [] => []
         | [(c, x)] => (q :: c ++ [q]) ++ S_ ":" ++ compact x
         | (c, x) :: r => (q :: c ++ [q]) ++ S_ ":" ++ compact x ++ S_ "," ++ go r
         end) ms ++ S_ "}"
  end.

(** All string literals (keys included) of a value satisfy [P]. *)
Inductive all_strings (P : str -> Prop) : jval -> Prop :=
| as_lit : forall l, all_strings P (JLit l)
| as_str : forall c, P c -> all_strings P (JStr c)
| as_arr : forall vs, Forall (all_strings P) vs -> all_strings P (JArr vs)
| as_obj : forall ms, Forall (fun m => P (fst m) /\ all_strings P (snd m)) ms ->
    all_strings P (JObj ms).

(** String contents the minifier handles: no raw ASCII control character, the last
    character is neither a backslash nor a quote and the one before it is not a
    quote. *)
Definition safe_content (c : str) : Prop :=
  Forall (fun x => is_ascii_control x = false) c /\
  (forall p x, c = p ++ [x] -> x <> bs /\ x <> q) /\
  (forall p x y, c = p ++ [x; y] -> x <> q).

(** Subsequence with a condition on what is left out. *)
Inductive deletes (D : N -> Prop) : str -> str -> Prop :=
| del_nil : deletes D [] []
| del_keep : forall c s t, deletes D s t -> deletes D (c :: s) (c :: t)
| del_drop : forall c s t, D c -> deletes D s t -> deletes D (c :: s) t.

(** No whitespace outside double-quoted strings, for texts without backslash:
    [inside] tells whether the number of quotes seen so far is odd. *)
Fixpoint no_outer_ws (inside : bool) (s : str) : Prop :=
  match s with
  | [] => True
  | c :: r => (inside = false -> is_whitespace c = false) /\
              no_outer_ws (if c =? q then negb inside else inside) r
  end.

(** No backslash directly followed by an ASCII control character. *)
Definition no_bs_control (s : str) : Prop :=
  forall p c r, s = p ++ bs :: c :: r -> is_ascii_control c = false.

(** ** What is left of a value when characters of its strings are deleted *)

(** The string literals of a value, keys included, in the order of the text. *)
Fixpoint strings (v : jval) : list str :=
  match v with
  | JLit _ => []
  | JStr c => [c]
  | JArr vs => flat_map strings vs
  | JObj ms => flat_map (fun m => fst m :: strings (snd m)) ms
  end.

(** The same structure, the same numbers and words, and strings related by [R]. *)
Inductive same_shape (R : str -> str -> Prop) : jval -> jval -> Prop :=
| sh_lit : forall l, same_shape R (JLit l) (JLit l)
| sh_str : forall c c', R c c' -> same_shape R (JStr c) (JStr c')
| sh_arr : forall vs vs', Forall2 (same_shape R) vs vs' -> same_shape R (JArr vs) (JArr vs')
| sh_obj : forall ms ms',
    Forall2 (fun m m' => R (fst m) (fst m') /\ same_shape R (snd m) (snd m')) ms ms' ->
    same_shape R (JObj ms) (JObj ms').

(** White space and control characters. *)
Definition faint (c : N) : Prop := is_whitespace c = true \/ is_ascii_control c = true.

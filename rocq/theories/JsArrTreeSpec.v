(** Specification of the documented way to aggregate literals into an array, in terms of the tokens
    of ECMA-262 and of syntax trees.  Independent of the model. *)
From Coq Require Import String Arith List NArith Bool Decimal.
From Verif Require Import Base EsSpec JsPlainSpec JsTreeSpec JsAggTreeSpec.
Import ListNotations.
Open Scope N_scope.

(** ** Literals *)

(** What stands between the quotation marks. *)
Definition inner (s : str) : str := removelast (tl s).

(** The number of literals with this between the quotation marks, whichever they are. *)
Definition sharing (whole : list element) (s : str) : nat :=
  length (filter (fun x => quoted x && str_eqb s (inner (snd x))) whole).

Definition alike (whole : list element) (e : element) : bool :=
  quoted e && (2 <=? sharing whole (inner (snd e)))%nat.

(** The literal with double quotation marks. *)
Definition requoted (s : str) : str := 0x22 :: s ++ [0x22].

(** Literals that are there twice are no templates and can be written with double quotation marks. *)
Definition requotes (start_u part_u : N -> bool) (whole : list element) : bool :=
  forallb (fun e => negb (alike whole e) || kind_eqb (fst e) Text && alone start_u part_u (Text, requoted (inner (snd e)))) whole.

(** None follows a word, a regular expression or another such literal, and neither [in] nor
    [instanceof] follows. *)
Fixpoint clear_around (whole l : list element) : bool :=
  match l with
  | a :: ((b :: _) as r) =>
      negb (alike whole b && (word a || kind_eqb (fst a) Regex || alike whole a))
      && negb (alike whole a && named ["in"; "instanceof"]%string b)
      && clear_around whole r
  | _ => true
  end.

(** The program does not use the name. *)
Definition unused (name : str) (l : list element) : bool := forallb (fun e => negb (word e && str_eqb (snd e) name)) l.

(** ** The array *)

Fixpoint figures (d : Decimal.uint) : str :=
  match d with
  | Nil => []
  | D0 r => 0x30 :: figures r
  | D1 r => 0x31 :: figures r
  | D2 r => 0x32 :: figures r
  | D3 r => 0x33 :: figures r
  | D4 r => 0x34 :: figures r
  | D5 r => 0x35 :: figures r
  | D6 r => 0x36 :: figures r
  | D7 r => 0x37 :: figures r
  | D8 r => 0x38 :: figures r
  | D9 r => 0x39 :: figures r
  end.

(** A number in decimal digits. *)
Definition ordinal (k : nat) : str := figures (N.to_uint (N.of_nat k)).

(** Where a literal is in the array. *)
Fixpoint position (elems : list str) (s : str) : option nat :=
  match elems with
  | [] => None
  | t :: r => if str_eqb s t then Some 0%nat else match position r s with Some k => Some (S k) | None => None end
  end.

(** [name[k]] *)
Definition element_at (name : str) (k : nat) : expr := EIndex (EWord name) (ELit (Number, ordinal k)).

Definition element_for (name : str) (elems : list str) (e : element) : option expr :=
  if quoted e then match position elems (inner (snd e)) with Some k => Some (element_at name k) | None => None end else None.

(** [var name=["s","t"];] as a statement. *)
Definition declaring_array (name : str) (elems : list str) : stmt :=
  SVar (S_ "var") [(PName name, Some (EArray (map (fun s => ELit (Text, requoted s)) elems)))].

(** The tree in which literals are replaced by elements of the array. *)
Definition looked_tree (name : str) (elems : list str) (t : list stmt) : list stmt := map (sw_s (element_for name elems)) t.

(** No literal that is there twice is a key or stands behind a tag. *)
Definition keys_alone (whole : list element) (t : list stmt) : bool := forallb (ok_s (fun e => negb (alike whole e))) t.

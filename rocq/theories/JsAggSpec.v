(** Specification of the aggregation of string literals. *)
From Coq Require Import String List NArith ZArith Bool.
From Verif Require Import Base JsModel JsUtilModel JsUtilSpec JsUtilProofs2.
Import ListNotations.
Open Scope N_scope.

(** ** Variables

    [found ts n v]: a search from some place of the program leads to the declarator at [n],
    whose value is at [v] ([declares] and [search_from] are those of C33). *)
Definition found_from (ts : list token) (q n v : nat) : Prop :=
  exists start, search_from ts q start /\ (start <= n)%nat /\ declares ts n (Some v)
    /\ forall n' r', (start <= n')%nat -> (n' < n)%nat -> ~ declares ts n' r'.

Definition found (ts : list token) (n v : nat) : Prop := exists q, found_from ts q n v.

(** The token at [n] is a name that starts with r_ . *)
Definition r_name (ts : list token) (n : nat) (x : str) : Prop :=
  nth_error ts n = Some (TOther x) /\ exists y, x = S_ "r_" ++ y.

(** [stands_for ts s n]: [n] is the name of an r_ variable that is given the literal [s] at
    [v]. *)
Definition stands_for (ts : list token) (s : str) (n v : nat) (x : str) : Prop :=
  found ts n v /\ r_name ts n x /\ nth_error ts v = Some (TString s).

(** ** The declaration of new variables, [ds] being names and literals *)
Definition declaration (d : str * str) : token := TCreatedVarDecl (fst d ++ S_ "=" ++ snd d).

Definition declarations (ds : list (str * str)) : list token :=
  match ds with
  | [] => []
  | d :: r => TKeyword KVar :: declaration d
              :: concat (map (fun d => [TChar Comma; declaration d]) r) ++ [TChar SemiColon]
  end.

(** Number of occurrences of a literal. *)
Definition occurrences (ts : list token) (s : str) : nat :=
  length (filter (fun t => match t with TString x => str_eqb x s | _ => false end) ts).

(** ** The choice of names

    The [k]-th name of the generator started with r_ and two letters (C34 describes the
    sequence). *)
Definition generated (k : nat) : str := namegen_show (nth_gen (namegen_new (Some (S_ "r_")) 2) k).

(** The r_ variables that the program declares with a value. *)
Definition program_name (ts : list token) (y : str) : Prop := exists n v, found ts n v /\ r_name ts n y.

(** All the names before the [k]-th one are in use. *)
Definition in_turn (ts : list token) (ds : list (str * str)) (k : nat) : Prop :=
  forall j, (j < k)%nat -> program_name ts (generated j) \/ In (generated j) (map fst ds).

(** The condition under which a variable [x] is used for [n] occurrences of the literal [s]
    (lengths in bytes). *)
Definition pays (n : nat) (s x : str) : Prop :=
  (blen x + blen s + 6 + n * blen x < (n + 2) * blen s)%nat.

(** [aggregated ts vars ds i t t']: the token [t] at [i] of the program is [t'] afterwards.
    [vars] gives for a literal the variable that already has it: where its name is, and
    where its value is. *)
Inductive aggregated (ts : list token) (vars : str -> option (nat * nat)) (ds : list (str * str)) (i : nat)
  : token -> token -> Prop :=
| ag_other : forall t, (forall s, t <> TString s) -> aggregated ts vars ds i t t
| ag_created : forall s x, vars s = None -> In (x, s) ds ->
    aggregated ts vars ds i (TString s) (TCreatedVar x)
| ag_value : forall s n, vars s = Some (n, i) -> aggregated ts vars ds i (TString s) (TString s)
| ag_variable : forall s n v x, vars s = Some (n, v) -> i <> v -> nth_error ts n = Some (TOther x) ->
    aggregated ts vars ds i (TString s) (TOther x)
| ag_literal : forall s, vars s = None -> ~ In s (map snd ds) ->
    aggregated ts vars ds i (TString s) (TString s).

(** The whole result: [ds] are the declarations, [ts'] the program after them. *)
Record aggregation (ts : list token) (vars : str -> option (nat * nat)) (ds : list (str * str))
  (ts' : list token) : Prop := {
  (* the variables that already have a literal *)
  an_vars : forall s n v, vars s = Some (n, v) -> exists x, stands_for ts s n v x;
  an_no_var : forall s, vars s = None -> forall n v x, ~ stands_for ts s n v x;
  (* the program keeps its shape *)
  an_length : length ts' = length ts;
  an_tokens : forall i t, nth_error ts i = Some t ->
    exists t', nth_error ts' i = Some t' /\ aggregated ts vars ds i t t';
  (* the new variables *)
  an_names : NoDup (map fst ds);
  an_literals : NoDup (map snd ds);
  an_fresh : forall x s, In (x, s) ds -> ~ program_name ts x;
  an_next : forall x s, In (x, s) ds -> exists k, x = generated k /\ in_turn ts ds k;
  (* the literals that get one *)
  an_pays : forall x s, In (x, s) ds -> vars s = None /\ (2 <= occurrences ts s)%nat /\ pays (occurrences ts s) s x;
  an_left : forall s, vars s = None -> ~ In s (map snd ds) -> (2 <= occurrences ts s)%nat ->
    exists k, in_turn ts ds k /\ ~ pays (occurrences ts s) s (generated k)
}.

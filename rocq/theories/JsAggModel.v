(** Model of the aggregation functions of src/js/tools.rs (lines 208-616). *)
From Coq Require Import String List NArith ZArith Bool.
From Verif Require Import Base JsModel JsUtilModel.
Import ListNotations.
Open Scope N_scope.

(** ** Hash maps and sets

    A map with string keys is an association list without duplicate keys; lookups and
    updates are those of HashMap.  Iteration order is not the order of the list: where the
    code iterates over a map, the model applies an arbitrary function [order] to the list
    of entries, and the theorems assume only that [order] returns a permutation. *)
Fixpoint mget {A} (m : list (str * A)) (k : str) : option A :=
  match m with
  | [] => None
  | (k', a) :: r => if str_eqb k k' then Some a else mget r k
  end.

Fixpoint mset {A} (m : list (str * A)) (k : str) (a : A) : list (str * A) :=
  match m with
  | [] => [(k, a)]
  | (k', a') :: r => if str_eqb k k' then (k', a) :: r else (k', a') :: mset r k a
  end.

Definition mem (l : list str) (k : str) : bool := existsb (str_eqb k) l.

(** [v[i] = x]. *)
Fixpoint update {A} (v : list A) (i : nat) (x : A) : list A :=
  match v, i with
  | [], _ => []
  | _ :: r, O => x :: r
  | a :: r, S j => a :: update r j x
  end.

(** [tokens.0[pos] = x]: an index out of bounds panics. *)
Definition set_index {A} (v : list A) (i : nat) (x : A) : outcome (list A) :=
  if Nat.ltb i (length v) then Ok (update v i x) else Panic.

(** [Vec::insert]: panics if the index is greater than the length. *)
Definition insert_at {A} (v : list A) (i : nat) (x : A) : outcome (list A) :=
  if Nat.leb i (length v) then Ok (firstn i v ++ x :: skipn i v) else Panic.

(** [s.starts_with(p)] *)
Fixpoint starts_with (p s : str) : bool :=
  match p, s with
  | [], _ => true
  | x :: p', y :: s' => (x =? y) && starts_with p' s'
  | _, _ => false
  end.

(** ** get_variables_name (tools.rs 208-236)

    Result: the set of names, and the map from string literals to (var_pos, value_pos). *)
Fixpoint variables_loop (fuel : nat) (tokens : list token) (pos : nat)
  (ret : list str) (variables : list (str * (nat * nat)))
  : outcome (list str * list (str * (nat * nat))) :=
  match fuel with
  | O => OutOfFuel
  | S n =>
      if Nat.ltb pos (length tokens) then
        let! t := index tokens pos in
        if is_keyword t || is_other t then
          let! o := get_variable_name_and_value_positions tokens pos in
          match o with
          | Some (var_pos, Some value_pos) =>
              let! vt := index tokens var_pos in
              let! wt := index tokens value_pos in
              let insert_value ret :=
                match get_string_of wt with
                | Some s => variables_loop n tokens (S value_pos) ret
                              (mset variables s (var_pos, value_pos))
                | None => variables_loop n tokens (S value_pos) ret variables
                end in
              match get_other vt with
              | Some var_name =>
                  if negb (starts_with (S_ "r_") var_name)
                  then variables_loop n tokens (S value_pos) ret variables
                  else insert_value (var_name :: ret)
              | None => insert_value ret
              end
          | _ => variables_loop n tokens (S pos) ret variables
          end
        else variables_loop n tokens (S pos) ret variables
      else Ok (ret, variables)
  end.

Definition get_variables_name (tokens : list token) :=
  variables_loop (S (length tokens)) tokens 0 [] [].

(** [while all_variables.contains(&next_name) { var_gen.next(); .. }] (tools.rs 254-257,
    280-283): the fuel is the size of the set plus one (the names are pairwise different, so
    the loop skips at most that many). *)
Fixpoint skip_used (fuel : nat) (used : list str) (g : namegen) : outcome namegen :=
  match fuel with
  | O => OutOfFuel
  | S n => if mem used (namegen_show g) then skip_used n used (namegen_next g) else Ok g
  end.

Definition fresh (used : list str) (g : namegen) : outcome namegen :=
  skip_used (S (length used)) used g.

(** State of the scan (tools.rs 259-287). *)
Record agg_state := {
  strs : list (str * list nat);
  validated : list (str * str);
  var_gen : namegen;
  to_replace : list (nat * nat)
}.

(** The size test (tools.rs 273-275); [n] is [x.len()]. *)
Definition worth_variable (n len name_len : nat) : bool :=
  Nat.ltb (name_len + len + 6 + n * name_len) ((n + 2) * len).

(** The scan (tools.rs 259-287). *)
Fixpoint agg_scan (used : list str) (values : list (str * (nat * nat))) (pos : nat)
  (ts : list token) (st : agg_state) : outcome agg_state :=
  match ts with
  | [] => Ok st
  | t :: r =>
      match get_string_of t with
      | None => agg_scan used values (S pos) r st
      | Some s =>
          match mget values s with
          | Some (var_pos, string_pos) =>
              agg_scan used values (S pos) r
                (if Nat.eqb pos string_pos then st
                 else {| strs := strs st; validated := validated st; var_gen := var_gen st;
                         to_replace := to_replace st ++ [(pos, var_pos)] |})
          | None =>
              let x := (match mget (strs st) s with Some l => l | None => [] end) ++ [pos] in
              let strs' := mset (strs st) s x in
              if Nat.ltb 1 (length x)
                 && match mget (validated st) s with Some _ => false | None => true end
                 && worth_variable (length x) (blen s) (blen (namegen_show (var_gen st)))
              then
                let! g := fresh used (namegen_next (var_gen st)) in
                agg_scan used values (S pos) r
                  {| strs := strs';
                     validated := mset (validated st) s (namegen_show (var_gen st));
                     var_gen := g; to_replace := to_replace st |}
              else
                agg_scan used values (S pos) r
                  {| strs := strs'; validated := validated st; var_gen := var_gen st;
                     to_replace := to_replace st |}
          end
      end
  end.

(** [String::cmp]: lexicographic order of the UTF-8 bytes (here: at most). *)
Fixpoint bytes_leb (a b : list N) : bool :=
  match a, b with
  | [], _ => true
  | _ :: _, [] => false
  | x :: a', y :: b' => if x <? y then true else if y <? x then false else bytes_leb a' b'
  end.

(** [sort_unstable_by]: modelled by insertion sort (the keys are pairwise different, so every
    sorting algorithm gives the same result). *)
Fixpoint insert_sorted {A} (leb : A -> A -> bool) (x : A) (l : list A) : list A :=
  match l with
  | [] => [x]
  | y :: r => if leb x y then x :: l else y :: insert_sorted leb x r
  end.

Fixpoint sort {A} (leb : A -> A -> bool) (l : list A) : list A :=
  match l with
  | [] => []
  | x :: r => insert_sorted leb x (sort leb r)
  end.

(** Replace several positions by one token (tools.rs 313-315). *)
Fixpoint replace_all (tokens : list token) (positions : list nat) (x : token)
  : outcome (list token) :=
  match positions with
  | [] => Ok tokens
  | p :: r => let! ts := set_index tokens p x in replace_all ts r x
  end.

(** The declaration loop (tools.rs 302-316). *)
Fixpoint declare_loop (l : list (str * list nat)) (new_vars tokens : list token)
  : outcome (list token * list token) :=
  match l with
  | [] => Ok (new_vars, tokens)
  | (name, positions) :: r =>
      let! p0 := index positions 0 in
      let! t := index tokens p0 in
      let sep := match new_vars with [] => TKeyword KVar | _ => TChar Comma end in
      let! tokens' := replace_all tokens positions (TCreatedVar name) in
      declare_loop r
        (new_vars ++ [sep; TCreatedVarDecl (name ++ S_ "=" ++ token_show t)]) tokens'
  end.

(** [for (to_replace_pos, variable_pos) in to_replace] (tools.rs 320-322). *)
Fixpoint copy_loop (l : list (nat * nat)) (tokens : list token) : outcome (list token) :=
  match l with
  | [] => Ok tokens
  | (p, v) :: r =>
      let! t := index tokens v in
      let! ts := set_index tokens p t in copy_loop r ts
  end.

(** [strs.remove(&token).unwrap()] for the validated strings, in the given order
    (tools.rs 298-301). *)
Fixpoint collect_positions (strs : list (str * list nat)) (l : list (str * str))
  : outcome (list (str * list nat)) :=
  match l with
  | [] => Ok []
  | (s, name) :: r =>
      match mget strs s with
      | Some ps => let! q := collect_positions strs r in Ok ((name, ps) :: q)
      | None => Panic
      end
  end.

Section HashOrder.

(** Iteration order of a hash map / hash set. *)
Variable order : forall A : Type, list A -> list A.

(** aggregate_strings_inner (tools.rs 238-330). *)
Definition aggregate_strings_inner (tokens : list token) (separation_token : option token)
  : outcome (list token) :=
  let! (used, values) := get_variables_name tokens in
  let! g := fresh used (namegen_new (Some (S_ "r_")) 2) in
  let! st := agg_scan used values 0 tokens
               {| strs := []; validated := []; var_gen := g; to_replace := [] |} in
  let sorted := sort (fun a b => bytes_leb (encode (snd a)) (encode (snd b)))
                  (order _ (validated st)) in
  let! l := collect_positions (strs st) sorted in
  let! (new_vars, tokens1) := declare_loop l [] tokens in
  let new_vars1 := match new_vars with [] => [] | _ => new_vars ++ [TChar SemiColon] end in
  let! tokens2 := copy_loop (to_replace st) tokens1 in
  Ok (new_vars1 ++ (match separation_token with Some t => [t] | None => [] end) ++ tokens2).

(** aggregate_strings (tools.rs 350-353), aggregate_strings_with_separation (384-390). *)
Definition aggregate_strings (tokens : list token) := aggregate_strings_inner tokens None.
Definition aggregate_strings_with_separation (tokens : list token) (sep : token) :=
  aggregate_strings_inner tokens (Some sep).

(** ** Aggregation into an array (tools.rs 392-510) *)

(** [&st[1..st.len() - 1]] *)
Definition unquote (s : str) : outcome str :=
  let! e := usub (blen s) 1 in oslice (slice s 1 e).

(** An entry of [strs]: position in the array, positions in the tokens, need creation. *)
Record entry := { e_index : N; e_positions : list nat; e_create : bool }.

(** The loop over the existing elements (tools.rs 414-422). *)
Fixpoint existing_loop (tokens : list token) (l : list nat) (m : list (str * entry))
  (valid : list str) (ignore : list nat) (array_pos : N)
  : outcome (list (str * entry) * list str * list nat * N) :=
  match l with
  | [] => Ok (m, valid, ignore, array_pos)
  | p :: r =>
      let! t := index tokens p in
      match get_string_of t with
      | Some st =>
          let! s := unquote st in
          existing_loop tokens r
            (mset m s {| e_index := array_pos; e_positions := []; e_create := false |})
            (if mem valid s then valid else valid ++ [s]) (ignore ++ [p]) (array_pos + 1)
      | None => existing_loop tokens r m valid ignore array_pos
      end
  end.

(** The size test (tools.rs 442-445). *)
Definition worth_array (n len name_len index_len : nat) : bool :=
  Nat.ltb ((name_len + index_len + 2) * n + index_len + 2) (len * n).

(** The scan (tools.rs 424-453). *)
Fixpoint array_scan (all : list token) (array_name : str) (filter : list token -> nat -> bool)
  (ignore : list nat) (pos : nat) (ts : list token)
  (m : list (str * entry)) (valid : list str) (array_pos : N)
  : outcome (list (str * entry) * list str) :=
  match ts with
  | [] => Ok (m, valid)
  | t :: r =>
      let skip := array_scan all array_name filter ignore (S pos) r m valid array_pos in
      if existsb (Nat.eqb pos) ignore then skip
      else
        match get_string_of t with
        | None => skip
        | Some str_token =>
            if negb (filter all pos) then skip
            else
              let! s := unquote str_token in
              let x := match mget m s with
                       | Some x => x
                       | None => {| e_index := 0; e_positions := []; e_create := true |}
                       end in
              let ps := e_positions x ++ [pos] in
              if Nat.ltb 1 (length ps) && negb (mem valid s)
                 && worth_array (length ps) (blen s) (blen array_name)
                      (blen (number_show array_pos))
              then
                array_scan all array_name filter ignore (S pos) r
                  (mset m s {| e_index := array_pos; e_positions := ps; e_create := e_create x |})
                  (valid ++ [s]) (array_pos + 1)
              else
                array_scan all array_name filter ignore (S pos) r
                  (mset m s {| e_index := e_index x; e_positions := ps; e_create := e_create x |})
                  valid array_pos
        end
  end.

(** [validated.iter().map(|v| (strs[v].0, v))] (tools.rs 470). *)
Fixpoint with_index (m : list (str * entry)) (l : list str) : outcome (list (N * str)) :=
  match l with
  | [] => Ok []
  | s :: r =>
      match mget m s with
      | Some x => let! q := with_index m r in Ok ((e_index x, s) :: q)
      | None => Panic
      end
  end.

(** The last loop (tools.rs 486-502): [to_replace] and [to_insert]. *)
Fixpoint array_edits (m : list (str * entry)) (array_name : str) (end_bracket : nat)
  (no_values : bool) (l : list (N * str))
  : outcome (list (nat * token) * list (nat * token)) :=
  match l with
  | [] => Ok ([], [])
  | (i, s) :: r =>
      match mget m s with
      | None => Panic
      | Some x =>
          let here := map (fun p => (p, TCreatedVar (array_name ++ S_ "[" ++ number_show i ++ S_ "]")))
                        (e_positions x) in
          let ins :=
            if e_create x then
              (end_bracket, TCreatedVar ([0x22] ++ s ++ [0x22]))
              :: (if (match r with [] => true | _ => false end) && no_values then []
                  else [(end_bracket, TChar Comma)])
            else [] in
          let! (a, b) := array_edits m array_name end_bracket no_values r in
          Ok (here ++ a, ins ++ b)
      end
  end.

Fixpoint apply_replace (l : list (nat * token)) (tokens : list token) : outcome (list token) :=
  match l with
  | [] => Ok tokens
  | (p, t) :: r => let! ts := set_index tokens p t in apply_replace r ts
  end.

Fixpoint apply_insert (l : list (nat * token)) (tokens : list token) : outcome (list token) :=
  match l with
  | [] => Ok tokens
  | (p, t) :: r => let! ts := insert_at tokens p t in apply_insert r ts
  end.

(** aggregate_strings_into_array_inner (tools.rs 392-510). *)
Definition aggregate_strings_into_array_inner (tokens : list token) (array_name : str)
  (separation_token : option token) (filter : list token -> nat -> bool)
  : outcome (list token) :=
  let '(current, need_recreate, end_bracket) :=
    match get_array tokens array_name with
    | Some (s, p) => (s, false, p)
    | None => ([], true, 0%nat)
    end in
  let! (m0, valid0, ignore, array_pos) := existing_loop tokens current [] [] [] 0 in
  let! (m, valid) := array_scan tokens array_name filter ignore 0 tokens m0 valid0 array_pos in
  let! indexed := with_index m (order _ valid) in
  let sorted := sort (fun a b => fst b <=? fst a) indexed in
  let create := need_recreate && match sorted with [] => false | _ => true end in
  let head :=
    if create then
      (match separation_token with Some t => [(0%nat, t)] | None => [] end)
      ++ [(0%nat, TChar SemiColon); (0%nat, TChar CloseBracket); (0%nat, TChar OpenBracket);
          (0%nat, TCreatedVarDecl (S_ "var " ++ array_name ++ S_ "="))]
    else [] in
  let bracket := if create then 2%nat else end_bracket in
  let! (rep, ins) := array_edits m array_name bracket
                       (match current with [] => true | _ => false end) sorted in
  let! tokens1 := apply_replace rep tokens in
  apply_insert (head ++ ins) tokens1.

(** The public variants (tools.rs 538-616). *)
Definition aggregate_strings_into_array (tokens : list token) (array_name : str) :=
  aggregate_strings_into_array_inner tokens array_name None (fun _ _ => true).
Definition aggregate_strings_into_array_with_separation (tokens : list token) (array_name : str)
  (sep : token) :=
  aggregate_strings_into_array_inner tokens array_name (Some sep) (fun _ _ => true).
Definition aggregate_strings_into_array_filter (tokens : list token) (array_name : str)
  (filter : list token -> nat -> bool) :=
  aggregate_strings_into_array_inner tokens array_name None filter.
Definition aggregate_strings_into_array_with_separation_filter (tokens : list token)
  (array_name : str) (sep : token) (filter : list token -> nat -> bool) :=
  aggregate_strings_into_array_inner tokens array_name (Some sep) filter.

End HashOrder.

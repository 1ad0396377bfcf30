(** C76, C77 in the other order: the syntax tree of a program that is cleaned before its string
    literals are aggregated. *)
From Coq Require Import String Arith List NArith Bool Permutation.
From Verif Require Import Base JsModel JsUtilModel JsUtilSpec JsAggModel JsPipeSpec JsPipeProofs EsSpec JsPlainSpec JsTreeSpec
  JsAggTreeSpec JsArrTreeSpec JsCleanTreeProofs PropJsAgg PropJsTree PropAggTree PropArrTree.
Import ListNotations.
Open Scope list_scope.
Open Scope N_scope.

(** Under the conditions of [C76_tree] the other order prints a program with the same tree, except
    that the empty statements at the start are gone. *)
Theorem C76_clean_first : forall order, any_order order -> forall start_u part_u l t,
  JsPlainSpec.plain start_u part_u None false l = true -> apart start_u part_u (pieces l) = true ->
  program t (lines false l) ->
  r_free (pieces l) = true -> beside (pieces l) (pieces l) = true -> keys_once (pieces l) t = true ->
  exists d ds, clean_first order (text l) = Ok d /\ NoDup (map fst ds) /\ NoDup (map snd ds)
    /\ (forall x s, In (x, s) ds -> (exists y, x = S_ "r_" ++ y /\ Forall (fun c => alnum c = true) y)
          /\ exists e, In e (pieces l) /\ snd e = s /\ repeated (pieces l) e = true)
    /\ es_program start_u part_u d
       = Some (match ds with [] => drop_empty t | _ => declaring ds :: swapped_tree ds (drop_empty t) end).
Proof. intros order O su pu l t H A W R B Ko. exact (clean_first_tree su pu order O l t H A W R B Ko). Qed.

(** And under the conditions of [C77_tree]. *)
Theorem C77_clean_first : forall order, any_order order -> forall start_u part_u name l t,
  JsPlainSpec.plain start_u part_u None false l = true -> apart start_u part_u (pieces l) = true ->
  program t (lines false l) ->
  array_name name -> binding name = true -> unused name (pieces l) = true ->
  requotes start_u part_u (pieces l) = true -> clear_around (pieces l) (pieces l) = true -> keys_alone (pieces l) t = true ->
  N.of_nat (length (pieces l)) <= 2 ^ 64 ->
  exists d elems, clean_first_array order name (text l) = Ok d /\ NoDup elems
    /\ (forall s, In s elems -> exists e, In e (pieces l) /\ inner (snd e) = s /\ alike (pieces l) e = true)
    /\ es_program start_u part_u d
       = Some (match elems with [] => drop_empty t | _ => declaring_array name elems :: looked_tree name elems (drop_empty t) end).
Proof. intros order O su pu name l t H A W N B U R C Ko Sz. exact (clean_first_array_tree su pu order O name l t H A W N B U R C Ko Sz). Qed.

(** ** Programs

    [shop] starts with an empty statement, which this order removes ([C77_ex] keeps it); the
    conditions hold by [C77_ex] and [C76_ex]. *)
Open Scope string_scope.

Example C77_clean_first_ex : exists d elems, clean_first_array last_first (S_ "R") (text shop) = Ok d
  /\ d = S_ ("var R=[" ++ dq ++ "carrot cake" ++ dq ++ "," ++ dq ++ "raisin bread" ++ dq ++ "];var a=[R[0],x];if(a==R[1])f(R[0],R[1],'x');")
  /\ elems = [S_ "carrot cake"; S_ "raisin bread"]
  /\ es_program ascii ascii d = Some (declaring_array (S_ "R") elems :: looked_tree (S_ "R") elems (drop_empty shop_tree)).
Proof. eexists. eexists. split; [vm_compute; reflexivity|]. split; [vm_compute; reflexivity|]. split; [reflexivity|]. vm_compute; reflexivity. Qed.

Example C76_clean_first_ex : exists d ds, clean_first last_first (text cakes) = Ok d
  /\ d = S_ "var r_aa='carrot cake',r_ba=`apple pie`;var a=[r_aa,x];if(a==r_ba)f(r_aa,r_ba,'x');"
  /\ ds = [(S_ "r_aa", S_ "'carrot cake'"); (S_ "r_ba", S_ "`apple pie`")]
  /\ es_program ascii ascii d = Some (declaring ds :: swapped_tree ds (drop_empty cakes_tree)).
Proof. eexists. eexists. split; [vm_compute; reflexivity|]. split; [vm_compute; reflexivity|]. split; [reflexivity|]. vm_compute; reflexivity. Qed.

Print Assumptions C76_clean_first.
Print Assumptions C77_clean_first.

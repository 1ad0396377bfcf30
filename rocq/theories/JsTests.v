(** The unit tests of src/js/token.rs, tools.rs and utils.rs, evaluated in the model.  Strings are
    given as character codes. *)
From Coq Require Import String List NArith Bool.
From Verif Require Import Base JsModel JsUtilModel JsAggModel.
Import ListNotations.
Open Scope N_scope.

Definition hash_order : forall A : Type, list A -> list A := fun _ l => rev l.

(** [v.to_string()] of a token list that may have failed. *)
Definition shown (x : outcome (list token)) : outcome str := let! ts := x in Ok (tokens_show ts).

Definition cleaned (x : outcome (list token)) : outcome (list token) := let! ts := x in clean_tokens ts.

Example unit_aggregate_strings_in_array_1 : shown (let! ts := cleaned (tokenize [118; 97; 114; 32; 120; 32; 61; 32; 91; 34; 97; 32; 110; 105; 99; 101; 32; 115; 116; 114; 105; 110; 103; 34; 44; 32; 34; 97; 32; 110; 105; 99; 101; 32; 115; 116; 114; 105; 110; 103; 34; 44; 32; 34; 97; 110; 111; 116; 104; 101; 114; 32; 110; 105; 99; 101; 32; 115; 116; 114; 105; 110; 103; 34; 44; 32; 34; 99; 97; 107; 101; 33; 34; 44; 10; 32; 32; 32; 32; 32; 32; 32; 32; 32; 32; 32; 32; 32; 32; 32; 32; 32; 32; 32; 32; 32; 32; 32; 32; 32; 32; 32; 32; 32; 34; 99; 97; 107; 101; 33; 34; 44; 32; 34; 97; 32; 110; 105; 99; 101; 32; 115; 116; 114; 105; 110; 103; 34; 44; 32; 34; 99; 97; 107; 101; 33; 34; 44; 32; 34; 99; 97; 107; 101; 33; 34; 44; 32; 34; 99; 97; 107; 101; 33; 34; 93; 59]) in aggregate_strings_into_array hash_order ts (S_ "R")) = Ok [118; 97; 114; 32; 82; 61; 91; 34; 97; 32; 110; 105; 99; 101; 32; 115; 116; 114; 105; 110; 103; 34; 44; 34; 99; 97; 107; 101; 33; 34; 93; 59; 118; 97; 114; 32; 120; 61; 91; 82; 91; 48; 93; 44; 82; 91; 48; 93; 44; 34; 97; 110; 111; 116; 104; 101; 114; 32; 110; 105; 99; 101; 32; 115; 116; 114; 105; 110; 103; 34; 44; 82; 91; 49; 93; 44; 82; 91; 49; 93; 44; 82; 91; 48; 93; 44; 82; 91; 49; 93; 44; 82; 91; 49; 93; 44; 82; 91; 49; 93; 93; 59].
Proof. vm_compute. reflexivity. Qed.

Example unit_aggregate_strings_in_array_2 : shown (let! ts := cleaned (tokenize [118; 97; 114; 32; 120; 32; 61; 32; 91; 34; 97; 32; 110; 105; 99; 101; 32; 115; 116; 114; 105; 110; 103; 34; 44; 32; 34; 97; 32; 110; 105; 99; 101; 32; 115; 116; 114; 105; 110; 103; 34; 44; 32; 34; 97; 110; 111; 116; 104; 101; 114; 32; 110; 105; 99; 101; 32; 115; 116; 114; 105; 110; 103; 34; 44; 32; 34; 99; 97; 107; 101; 33; 34; 44; 10; 32; 32; 32; 32; 32; 32; 32; 32; 32; 32; 32; 32; 32; 32; 32; 32; 32; 32; 32; 32; 32; 32; 32; 32; 32; 32; 32; 32; 32; 34; 99; 97; 107; 101; 33; 34; 44; 32; 34; 97; 32; 110; 105; 99; 101; 32; 115; 116; 114; 105; 110; 103; 34; 44; 32; 34; 99; 97; 107; 101; 33; 34; 44; 32; 34; 99; 97; 107; 101; 33; 34; 44; 32; 34; 99; 97; 107; 101; 33; 34; 93; 59]) in aggregate_strings_into_array_with_separation hash_order ts (S_ "R") (TChar Backline)) = Ok [118; 97; 114; 32; 82; 61; 91; 34; 97; 32; 110; 105; 99; 101; 32; 115; 116; 114; 105; 110; 103; 34; 44; 34; 99; 97; 107; 101; 33; 34; 93; 59; 10; 118; 97; 114; 32; 120; 61; 91; 82; 91; 48; 93; 44; 82; 91; 48; 93; 44; 34; 97; 110; 111; 116; 104; 101; 114; 32; 110; 105; 99; 101; 32; 115; 116; 114; 105; 110; 103; 34; 44; 82; 91; 49; 93; 44; 82; 91; 49; 93; 44; 82; 91; 48; 93; 44; 82; 91; 49; 93; 44; 82; 91; 49; 93; 44; 82; 91; 49; 93; 93; 59].
Proof. vm_compute. reflexivity. Qed.

Example unit_aggregate_strings_in_array_3 : shown (let! ts := cleaned (tokenize [118; 97; 114; 32; 120; 32; 61; 32; 91; 34; 97; 32; 110; 105; 99; 101; 32; 115; 116; 114; 105; 110; 103; 34; 44; 32; 34; 97; 32; 110; 105; 99; 101; 32; 115; 116; 114; 105; 110; 103; 34; 44; 32; 34; 97; 110; 111; 116; 104; 101; 114; 32; 110; 105; 99; 101; 32; 115; 116; 114; 105; 110; 103; 34; 44; 32; 34; 97; 110; 111; 116; 104; 101; 114; 32; 110; 105; 99; 101; 32; 115; 116; 114; 105; 110; 103; 34; 44; 32; 34; 97; 110; 111; 116; 104; 101; 114; 32; 110; 105; 99; 101; 32; 115; 116; 114; 105; 110; 103; 34; 44; 32; 34; 97; 110; 111; 116; 104; 101; 114; 32; 110; 105; 99; 101; 32; 115; 116; 114; 105; 110; 103; 34; 44; 34; 99; 97; 107; 101; 33; 34; 44; 34; 99; 97; 107; 101; 33; 34; 44; 32; 34; 97; 32; 110; 105; 99; 101; 32; 115; 116; 114; 105; 110; 103; 34; 44; 32; 34; 99; 97; 107; 101; 33; 34; 44; 32; 34; 99; 97; 107; 101; 33; 34; 44; 32; 34; 99; 97; 107; 101; 33; 34; 93; 59]) in aggregate_strings_into_array_with_separation hash_order ts (S_ "R") (TChar Backline)) = Ok [118; 97; 114; 32; 82; 61; 91; 34; 97; 32; 110; 105; 99; 101; 32; 115; 116; 114; 105; 110; 103; 34; 44; 34; 97; 110; 111; 116; 104; 101; 114; 32; 110; 105; 99; 101; 32; 115; 116; 114; 105; 110; 103; 34; 44; 34; 99; 97; 107; 101; 33; 34; 93; 59; 10; 118; 97; 114; 32; 120; 61; 91; 82; 91; 48; 93; 44; 82; 91; 48; 93; 44; 82; 91; 49; 93; 44; 82; 91; 49; 93; 44; 82; 91; 49; 93; 44; 82; 91; 49; 93; 44; 82; 91; 50; 93; 44; 82; 91; 50; 93; 44; 82; 91; 48; 93; 44; 82; 91; 50; 93; 44; 82; 91; 50; 93; 44; 82; 91; 50; 93; 93; 59].
Proof. vm_compute. reflexivity. Qed.

Example unit_aggregate_strings_in_array_filter_1 : shown (let! ts := cleaned (tokenize [118; 97; 114; 32; 115; 101; 97; 114; 99; 104; 73; 110; 100; 101; 120; 32; 61; 32; 123; 125; 59; 115; 101; 97; 114; 99; 104; 73; 110; 100; 101; 120; 91; 39; 100; 117; 112; 108; 105; 99; 97; 116; 101; 95; 112; 97; 116; 104; 115; 39; 93; 32; 61; 32; 123; 39; 97; 97; 97; 97; 97; 97; 97; 97; 39; 58; 32; 39; 98; 98; 98; 98; 98; 98; 98; 98; 39; 44; 32; 39; 98; 98; 98; 98; 98; 98; 98; 98; 39; 58; 32; 39; 97; 97; 97; 97; 97; 97; 97; 97; 39; 44; 32; 39; 100; 117; 112; 108; 105; 99; 97; 116; 101; 95; 112; 97; 116; 104; 115; 39; 58; 32; 39; 97; 97; 97; 97; 97; 97; 97; 97; 39; 125; 59]) in aggregate_strings_into_array_with_separation_filter hash_order ts (S_ "R") (TChar Backline) (fun ts pos => Nat.ltb pos 2 || negb (match nth_error ts (pos - 1) with Some t => eq_char OpenBracket t | None => false end) || negb (match nth_error ts (pos - 2) with Some (TOther s) => str_eqb s (S_ "searchIndex") | _ => false end))) = Ok [118; 97; 114; 32; 82; 61; 91; 34; 98; 98; 98; 98; 98; 98; 98; 98; 34; 44; 34; 97; 97; 97; 97; 97; 97; 97; 97; 34; 93; 59; 10; 118; 97; 114; 32; 115; 101; 97; 114; 99; 104; 73; 110; 100; 101; 120; 61; 123; 125; 59; 115; 101; 97; 114; 99; 104; 73; 110; 100; 101; 120; 91; 39; 100; 117; 112; 108; 105; 99; 97; 116; 101; 95; 112; 97; 116; 104; 115; 39; 93; 61; 123; 82; 91; 49; 93; 58; 82; 91; 48; 93; 44; 82; 91; 48; 93; 58; 82; 91; 49; 93; 44; 39; 100; 117; 112; 108; 105; 99; 97; 116; 101; 95; 112; 97; 116; 104; 115; 39; 58; 82; 91; 49; 93; 125; 59].
Proof. vm_compute. reflexivity. Qed.

Example unit_aggregate_strings_in_array_filter_2 : shown (let! ts := cleaned (tokenize [118; 97; 114; 32; 115; 101; 97; 114; 99; 104; 73; 110; 100; 101; 120; 32; 61; 32; 123; 125; 59; 115; 101; 97; 114; 99; 104; 73; 110; 100; 101; 120; 91; 39; 100; 117; 112; 108; 105; 99; 97; 116; 101; 95; 112; 97; 116; 104; 115; 39; 93; 32; 61; 32; 123; 39; 97; 97; 97; 97; 97; 97; 97; 97; 39; 58; 32; 39; 98; 98; 98; 98; 98; 98; 98; 98; 39; 44; 32; 39; 98; 98; 98; 98; 98; 98; 98; 98; 39; 58; 32; 39; 97; 97; 97; 97; 97; 97; 97; 97; 39; 44; 32; 39; 100; 117; 112; 108; 105; 99; 97; 116; 101; 95; 112; 97; 116; 104; 115; 39; 58; 32; 39; 97; 97; 97; 97; 97; 97; 97; 97; 39; 44; 32; 39; 120; 39; 58; 32; 39; 100; 117; 112; 108; 105; 99; 97; 116; 101; 95; 112; 97; 116; 104; 115; 39; 125; 59]) in aggregate_strings_into_array_with_separation_filter hash_order ts (S_ "R") (TChar Backline) (fun ts pos => Nat.ltb pos 2 || negb (match nth_error ts (pos - 1) with Some t => eq_char OpenBracket t | None => false end) || negb (match nth_error ts (pos - 2) with Some (TOther s) => str_eqb s (S_ "searchIndex") | _ => false end))) = Ok [118; 97; 114; 32; 82; 61; 91; 34; 98; 98; 98; 98; 98; 98; 98; 98; 34; 44; 34; 97; 97; 97; 97; 97; 97; 97; 97; 34; 44; 34; 100; 117; 112; 108; 105; 99; 97; 116; 101; 95; 112; 97; 116; 104; 115; 34; 93; 59; 10; 118; 97; 114; 32; 115; 101; 97; 114; 99; 104; 73; 110; 100; 101; 120; 61; 123; 125; 59; 115; 101; 97; 114; 99; 104; 73; 110; 100; 101; 120; 91; 39; 100; 117; 112; 108; 105; 99; 97; 116; 101; 95; 112; 97; 116; 104; 115; 39; 93; 61; 123; 82; 91; 49; 93; 58; 82; 91; 48; 93; 44; 82; 91; 48; 93; 58; 82; 91; 49; 93; 44; 82; 91; 50; 93; 58; 82; 91; 49; 93; 44; 39; 120; 39; 58; 82; 91; 50; 93; 125; 59].
Proof. vm_compute. reflexivity. Qed.

Example unit_aggregate_strings_in_array_existing_1 : shown (let! ts := cleaned (tokenize [118; 97; 114; 32; 82; 61; 91; 93; 59; 118; 97; 114; 32; 120; 32; 61; 32; 91; 34; 97; 32; 110; 105; 99; 101; 32; 115; 116; 114; 105; 110; 103; 34; 44; 32; 34; 97; 32; 110; 105; 99; 101; 32; 115; 116; 114; 105; 110; 103; 34; 44; 32; 34; 97; 110; 111; 116; 104; 101; 114; 32; 110; 105; 99; 101; 32; 115; 116; 114; 105; 110; 103; 34; 44; 32; 34; 99; 97; 107; 101; 33; 34; 44; 10; 32; 32; 32; 32; 32; 32; 32; 32; 32; 32; 32; 32; 32; 32; 32; 32; 32; 32; 32; 32; 32; 32; 32; 32; 32; 32; 32; 32; 32; 34; 99; 97; 107; 101; 33; 34; 44; 32; 34; 97; 32; 110; 105; 99; 101; 32; 115; 116; 114; 105; 110; 103; 34; 44; 32; 34; 99; 97; 107; 101; 33; 34; 44; 32; 34; 99; 97; 107; 101; 33; 34; 44; 32; 34; 99; 97; 107; 101; 33; 34; 93; 59]) in aggregate_strings_into_array hash_order ts (S_ "R")) = Ok [118; 97; 114; 32; 82; 61; 91; 34; 97; 32; 110; 105; 99; 101; 32; 115; 116; 114; 105; 110; 103; 34; 44; 34; 99; 97; 107; 101; 33; 34; 93; 59; 118; 97; 114; 32; 120; 61; 91; 82; 91; 48; 93; 44; 82; 91; 48; 93; 44; 34; 97; 110; 111; 116; 104; 101; 114; 32; 110; 105; 99; 101; 32; 115; 116; 114; 105; 110; 103; 34; 44; 82; 91; 49; 93; 44; 82; 91; 49; 93; 44; 82; 91; 48; 93; 44; 82; 91; 49; 93; 44; 82; 91; 49; 93; 44; 82; 91; 49; 93; 93; 59].
Proof. vm_compute. reflexivity. Qed.

Example unit_aggregate_strings_in_array_existing_2 : shown (let! ts := cleaned (tokenize [118; 97; 114; 32; 82; 61; 91; 34; 97; 32; 110; 105; 99; 101; 32; 115; 116; 114; 105; 110; 103; 34; 93; 59; 118; 97; 114; 32; 120; 32; 61; 32; 91; 34; 97; 32; 110; 105; 99; 101; 32; 115; 116; 114; 105; 110; 103; 34; 44; 32; 34; 97; 32; 110; 105; 99; 101; 32; 115; 116; 114; 105; 110; 103; 34; 44; 32; 34; 97; 110; 111; 116; 104; 101; 114; 32; 110; 105; 99; 101; 32; 115; 116; 114; 105; 110; 103; 34; 44; 32; 34; 99; 97; 107; 101; 33; 34; 44; 10; 32; 32; 32; 32; 32; 32; 32; 32; 32; 32; 32; 32; 32; 32; 32; 32; 32; 32; 32; 32; 32; 32; 32; 32; 32; 32; 32; 32; 32; 34; 99; 97; 107; 101; 33; 34; 44; 32; 34; 97; 32; 110; 105; 99; 101; 32; 115; 116; 114; 105; 110; 103; 34; 44; 32; 34; 99; 97; 107; 101; 33; 34; 44; 32; 34; 99; 97; 107; 101; 33; 34; 44; 32; 34; 99; 97; 107; 101; 33; 34; 93; 59]) in aggregate_strings_into_array hash_order ts (S_ "R")) = Ok [118; 97; 114; 32; 82; 61; 91; 34; 97; 32; 110; 105; 99; 101; 32; 115; 116; 114; 105; 110; 103; 34; 44; 34; 99; 97; 107; 101; 33; 34; 93; 59; 118; 97; 114; 32; 120; 61; 91; 82; 91; 48; 93; 44; 82; 91; 48; 93; 44; 34; 97; 110; 111; 116; 104; 101; 114; 32; 110; 105; 99; 101; 32; 115; 116; 114; 105; 110; 103; 34; 44; 82; 91; 49; 93; 44; 82; 91; 49; 93; 44; 82; 91; 48; 93; 44; 82; 91; 49; 93; 44; 82; 91; 49; 93; 44; 82; 91; 49; 93; 93; 59].
Proof. vm_compute. reflexivity. Qed.

Example unit_aggregate_strings_in_array_existing_3 : shown (let! ts := cleaned (tokenize [118; 97; 114; 32; 121; 32; 61; 32; 49; 50; 59; 118; 97; 114; 32; 82; 61; 91; 34; 97; 32; 110; 105; 99; 101; 32; 115; 116; 114; 105; 110; 103; 34; 93; 59; 118; 97; 114; 32; 120; 32; 61; 32; 91; 34; 97; 32; 110; 105; 99; 101; 32; 115; 116; 114; 105; 110; 103; 34; 44; 32; 34; 97; 32; 110; 105; 99; 101; 32; 115; 116; 114; 105; 110; 103; 34; 44; 32; 34; 97; 110; 111; 116; 104; 101; 114; 32; 110; 105; 99; 101; 32; 115; 116; 114; 105; 110; 103; 34; 44; 32; 34; 99; 97; 107; 101; 33; 34; 44; 10; 32; 32; 32; 32; 32; 32; 32; 32; 32; 32; 32; 32; 32; 32; 32; 32; 32; 32; 32; 32; 32; 32; 32; 32; 32; 32; 32; 32; 32; 34; 99; 97; 107; 101; 33; 34; 44; 32; 34; 97; 32; 110; 105; 99; 101; 32; 115; 116; 114; 105; 110; 103; 34; 44; 32; 34; 99; 97; 107; 101; 33; 34; 44; 32; 34; 99; 97; 107; 101; 33; 34; 44; 32; 34; 99; 97; 107; 101; 33; 34; 93; 59]) in aggregate_strings_into_array hash_order ts (S_ "R")) = Ok [118; 97; 114; 32; 121; 61; 49; 50; 59; 118; 97; 114; 32; 82; 61; 91; 34; 97; 32; 110; 105; 99; 101; 32; 115; 116; 114; 105; 110; 103; 34; 44; 34; 99; 97; 107; 101; 33; 34; 93; 59; 118; 97; 114; 32; 120; 61; 91; 82; 91; 48; 93; 44; 82; 91; 48; 93; 44; 34; 97; 110; 111; 116; 104; 101; 114; 32; 110; 105; 99; 101; 32; 115; 116; 114; 105; 110; 103; 34; 44; 82; 91; 49; 93; 44; 82; 91; 49; 93; 44; 82; 91; 48; 93; 44; 82; 91; 49; 93; 44; 82; 91; 49; 93; 44; 82; 91; 49; 93; 93; 59].
Proof. vm_compute. reflexivity. Qed.

Example unit_aggregate_strings_in_array_existing_4 : shown (let! ts := cleaned (tokenize [118; 97; 114; 32; 82; 61; 91; 34; 111; 115; 101; 102; 49; 34; 44; 32; 34; 111; 50; 34; 44; 32; 34; 100; 97; 109; 110; 34; 93; 59; 10; 32; 32; 32; 32; 32; 32; 32; 32; 32; 32; 32; 32; 32; 32; 32; 32; 32; 32; 32; 32; 118; 97; 114; 32; 120; 32; 61; 32; 91; 34; 97; 32; 110; 105; 99; 101; 32; 115; 116; 114; 105; 110; 103; 34; 44; 32; 34; 97; 32; 110; 105; 99; 101; 32; 115; 116; 114; 105; 110; 103; 34; 44; 32; 34; 97; 110; 111; 116; 104; 101; 114; 32; 110; 105; 99; 101; 32; 115; 116; 114; 105; 110; 103; 34; 44; 32; 34; 99; 97; 107; 101; 33; 34; 44; 10; 32; 32; 32; 32; 32; 32; 32; 32; 32; 32; 32; 32; 32; 32; 32; 32; 32; 32; 32; 32; 32; 32; 32; 32; 32; 32; 32; 32; 32; 34; 99; 97; 107; 101; 33; 34; 44; 32; 34; 97; 32; 110; 105; 99; 101; 32; 115; 116; 114; 105; 110; 103; 34; 44; 32; 34; 99; 97; 107; 101; 33; 34; 44; 32; 34; 99; 97; 107; 101; 33; 34; 44; 32; 34; 99; 97; 107; 101; 33; 34; 93; 59]) in aggregate_strings_into_array hash_order ts (S_ "R")) = Ok [118; 97; 114; 32; 82; 61; 91; 34; 111; 115; 101; 102; 49; 34; 44; 34; 111; 50; 34; 44; 34; 100; 97; 109; 110; 34; 44; 34; 97; 32; 110; 105; 99; 101; 32; 115; 116; 114; 105; 110; 103; 34; 44; 34; 99; 97; 107; 101; 33; 34; 93; 59; 118; 97; 114; 32; 120; 61; 91; 82; 91; 51; 93; 44; 82; 91; 51; 93; 44; 34; 97; 110; 111; 116; 104; 101; 114; 32; 110; 105; 99; 101; 32; 115; 116; 114; 105; 110; 103; 34; 44; 82; 91; 52; 93; 44; 82; 91; 52; 93; 44; 82; 91; 51; 93; 44; 82; 91; 52; 93; 44; 82; 91; 52; 93; 44; 82; 91; 52; 93; 93; 59].
Proof. vm_compute. reflexivity. Qed.

Example unit_string_duplicates_1 : shown (cleaned (let! ts := tokenize [118; 97; 114; 32; 120; 32; 61; 32; 91; 34; 97; 32; 110; 105; 99; 101; 32; 115; 116; 114; 105; 110; 103; 34; 44; 32; 34; 97; 32; 110; 105; 99; 101; 32; 115; 116; 114; 105; 110; 103; 34; 44; 32; 34; 97; 110; 111; 116; 104; 101; 114; 32; 110; 105; 99; 101; 32; 115; 116; 114; 105; 110; 103; 34; 44; 32; 34; 99; 97; 107; 101; 33; 34; 44; 10; 32; 32; 32; 32; 32; 32; 32; 32; 32; 32; 32; 32; 32; 32; 32; 32; 32; 32; 32; 32; 32; 32; 32; 32; 32; 32; 32; 32; 32; 34; 99; 97; 107; 101; 33; 34; 44; 32; 34; 97; 32; 110; 105; 99; 101; 32; 115; 116; 114; 105; 110; 103; 34; 44; 32; 34; 99; 97; 107; 101; 33; 34; 44; 32; 34; 99; 97; 107; 101; 33; 34; 44; 32; 34; 99; 97; 107; 101; 33; 34; 93; 59] in aggregate_strings hash_order ts)) = Ok [118; 97; 114; 32; 114; 95; 97; 97; 61; 34; 97; 32; 110; 105; 99; 101; 32; 115; 116; 114; 105; 110; 103; 34; 44; 114; 95; 98; 97; 61; 34; 99; 97; 107; 101; 33; 34; 59; 118; 97; 114; 32; 120; 61; 91; 114; 95; 97; 97; 44; 114; 95; 97; 97; 44; 34; 97; 110; 111; 116; 104; 101; 114; 32; 110; 105; 99; 101; 32; 115; 116; 114; 105; 110; 103; 34; 44; 114; 95; 98; 97; 44; 114; 95; 98; 97; 44; 114; 95; 97; 97; 44; 114; 95; 98; 97; 44; 114; 95; 98; 97; 44; 114; 95; 98; 97; 93; 59].
Proof. vm_compute. reflexivity. Qed.

Example unit_already_existing_var_1 : shown (cleaned (let! ts := tokenize [118; 97; 114; 32; 114; 95; 97; 97; 32; 61; 32; 34; 97; 32; 110; 105; 99; 101; 32; 115; 116; 114; 105; 110; 103; 34; 59; 32; 118; 97; 114; 32; 120; 32; 61; 32; 91; 34; 97; 32; 110; 105; 99; 101; 32; 115; 116; 114; 105; 110; 103; 34; 44; 32; 34; 97; 32; 110; 105; 99; 101; 32; 115; 116; 114; 105; 110; 103; 34; 44; 10; 32; 32; 32; 32; 32; 32; 32; 32; 32; 32; 32; 32; 32; 32; 32; 32; 32; 32; 32; 32; 34; 97; 110; 111; 116; 104; 101; 114; 32; 110; 105; 99; 101; 32; 115; 116; 114; 105; 110; 103; 34; 44; 32; 34; 99; 97; 107; 101; 33; 34; 44; 10; 32; 32; 32; 32; 32; 32; 32; 32; 32; 32; 32; 32; 32; 32; 32; 32; 32; 32; 32; 32; 34; 99; 97; 107; 101; 33; 34; 44; 32; 34; 97; 32; 110; 105; 99; 101; 32; 115; 116; 114; 105; 110; 103; 34; 44; 32; 34; 99; 97; 107; 101; 33; 34; 44; 32; 34; 99; 97; 107; 101; 33; 34; 44; 32; 34; 99; 97; 107; 101; 33; 34; 93; 59] in aggregate_strings hash_order ts)) = Ok [118; 97; 114; 32; 114; 95; 98; 97; 61; 34; 99; 97; 107; 101; 33; 34; 59; 118; 97; 114; 32; 114; 95; 97; 97; 61; 34; 97; 32; 110; 105; 99; 101; 32; 115; 116; 114; 105; 110; 103; 34; 59; 118; 97; 114; 32; 120; 61; 91; 114; 95; 97; 97; 44; 114; 95; 97; 97; 44; 34; 97; 110; 111; 116; 104; 101; 114; 32; 110; 105; 99; 101; 32; 115; 116; 114; 105; 110; 103; 34; 44; 114; 95; 98; 97; 44; 114; 95; 98; 97; 44; 114; 95; 97; 97; 44; 114; 95; 98; 97; 44; 114; 95; 98; 97; 44; 114; 95; 98; 97; 93; 59].
Proof. vm_compute. reflexivity. Qed.

Example unit_string_duplicates_variables_already_exist_1 : shown (cleaned (let! ts := tokenize [118; 97; 114; 32; 114; 95; 97; 97; 61; 49; 59; 118; 97; 114; 32; 120; 32; 61; 32; 91; 34; 97; 32; 110; 105; 99; 101; 32; 115; 116; 114; 105; 110; 103; 34; 44; 32; 34; 97; 32; 110; 105; 99; 101; 32; 115; 116; 114; 105; 110; 103; 34; 44; 32; 34; 97; 110; 111; 116; 104; 101; 114; 32; 110; 105; 99; 101; 32; 115; 116; 114; 105; 110; 103; 34; 44; 32; 34; 99; 97; 107; 101; 33; 34; 44; 10; 32; 32; 32; 32; 32; 32; 32; 32; 32; 32; 32; 32; 32; 32; 32; 32; 32; 32; 32; 32; 32; 32; 32; 32; 32; 32; 32; 32; 32; 34; 99; 97; 107; 101; 33; 34; 44; 32; 34; 97; 32; 110; 105; 99; 101; 32; 115; 116; 114; 105; 110; 103; 34; 44; 32; 34; 99; 97; 107; 101; 33; 34; 44; 32; 34; 99; 97; 107; 101; 33; 34; 44; 32; 34; 99; 97; 107; 101; 33; 34; 93; 59] in aggregate_strings hash_order ts)) = Ok [118; 97; 114; 32; 114; 95; 98; 97; 61; 34; 97; 32; 110; 105; 99; 101; 32; 115; 116; 114; 105; 110; 103; 34; 44; 114; 95; 99; 97; 61; 34; 99; 97; 107; 101; 33; 34; 59; 118; 97; 114; 32; 114; 95; 97; 97; 61; 49; 59; 118; 97; 114; 32; 120; 61; 91; 114; 95; 98; 97; 44; 114; 95; 98; 97; 44; 34; 97; 110; 111; 116; 104; 101; 114; 32; 110; 105; 99; 101; 32; 115; 116; 114; 105; 110; 103; 34; 44; 114; 95; 99; 97; 44; 114; 95; 99; 97; 44; 114; 95; 98; 97; 44; 114; 95; 99; 97; 44; 114; 95; 99; 97; 44; 114; 95; 99; 97; 93; 59].
Proof. vm_compute. reflexivity. Qed.

Example unit_string_duplicates_with_separator_1 : shown (let! ts := cleaned (tokenize [118; 97; 114; 32; 120; 32; 61; 32; 91; 34; 97; 32; 110; 105; 99; 101; 32; 115; 116; 114; 105; 110; 103; 34; 44; 32; 34; 97; 32; 110; 105; 99; 101; 32; 115; 116; 114; 105; 110; 103; 34; 44; 32; 34; 97; 110; 111; 116; 104; 101; 114; 32; 110; 105; 99; 101; 32; 115; 116; 114; 105; 110; 103; 34; 44; 32; 34; 99; 97; 107; 101; 33; 34; 44; 10; 32; 32; 32; 32; 32; 32; 32; 32; 32; 32; 32; 32; 32; 32; 32; 32; 32; 32; 32; 32; 32; 32; 32; 32; 32; 32; 32; 32; 32; 34; 99; 97; 107; 101; 33; 34; 44; 32; 34; 97; 32; 110; 105; 99; 101; 32; 115; 116; 114; 105; 110; 103; 34; 44; 32; 34; 99; 97; 107; 101; 33; 34; 44; 32; 34; 99; 97; 107; 101; 33; 34; 44; 32; 34; 99; 97; 107; 101; 33; 34; 93; 59]) in aggregate_strings_with_separation hash_order ts (TChar Backline)) = Ok [118; 97; 114; 32; 114; 95; 97; 97; 61; 34; 97; 32; 110; 105; 99; 101; 32; 115; 116; 114; 105; 110; 103; 34; 44; 114; 95; 98; 97; 61; 34; 99; 97; 107; 101; 33; 34; 59; 10; 118; 97; 114; 32; 120; 61; 91; 114; 95; 97; 97; 44; 114; 95; 97; 97; 44; 34; 97; 110; 111; 116; 104; 101; 114; 32; 110; 105; 99; 101; 32; 115; 116; 114; 105; 110; 103; 34; 44; 114; 95; 98; 97; 44; 114; 95; 98; 97; 44; 114; 95; 97; 97; 44; 114; 95; 98; 97; 44; 114; 95; 98; 97; 44; 114; 95; 98; 97; 93; 59].
Proof. vm_compute. reflexivity. Qed.

Example unit_clean_except_1 : shown (let! ts := tokenize [118; 97; 114; 32; 120; 32; 61; 32; 91; 49; 44; 32; 50; 44; 32; 51; 93; 59; 10; 118; 97; 114; 32; 121; 32; 61; 32; 34; 115; 97; 108; 117; 116; 34; 59; 10; 118; 97; 114; 32; 122; 32; 61; 32; 34; 111; 107; 33; 34; 59] in clean_tokens_except ts (fun c => negb (eq_char Backline c))) = Ok [118; 97; 114; 32; 120; 61; 91; 49; 44; 50; 44; 51; 93; 59; 10; 118; 97; 114; 32; 121; 61; 34; 115; 97; 108; 117; 116; 34; 59; 10; 118; 97; 114; 32; 122; 61; 34; 111; 107; 33; 34].
Proof. vm_compute. reflexivity. Qed.

Example unit_clean_except2_1 : shown (let! ts := tokenize [108; 101; 116; 32; 120; 32; 61; 32; 91; 32; 49; 44; 32; 50; 44; 32; 9; 51; 93; 59] in clean_tokens_except ts (fun c => negb (eq_char Space c) && negb (eq_char SemiColon c))) = Ok [108; 101; 116; 32; 120; 32; 61; 32; 91; 32; 49; 44; 32; 50; 44; 32; 51; 93; 59].
Proof. vm_compute. reflexivity. Qed.

Example unit_clean_except3_1 : shown (let! ts := tokenize [108; 101; 116; 32; 120; 32; 61; 32; 91; 32; 49; 44; 32; 50; 44; 32; 9; 51; 93; 59] in clean_tokens_except ts (fun c => negb (eq_char Tab c) && negb (eq_char SemiColon c))) = Ok [108; 101; 116; 32; 120; 61; 91; 49; 44; 50; 44; 9; 51; 93; 59].
Proof. vm_compute. reflexivity. Qed.

Example unit_simple_quote_1 : js_minify [118; 97; 114; 32; 120; 32; 61; 32; 34; 92; 92; 34; 59] = Ok [118; 97; 114; 32; 120; 61; 34; 92; 92; 34; 59].
Proof. vm_compute. reflexivity. Qed.

Example unit_js_minify_test_1 : js_minify [10; 118; 97; 114; 32; 102; 111; 111; 32; 61; 32; 34; 115; 111; 109; 101; 116; 104; 105; 110; 103; 34; 59; 10; 10; 118; 97; 114; 32; 97; 110; 111; 116; 104; 101; 114; 95; 118; 97; 114; 32; 61; 32; 50; 51; 52; 56; 51; 50; 51; 59; 10; 10; 47; 47; 32; 119; 104; 111; 32; 100; 111; 101; 115; 110; 39; 116; 32; 108; 105; 107; 101; 32; 99; 111; 109; 109; 101; 110; 116; 115; 63; 10; 47; 42; 32; 97; 110; 100; 32; 101; 118; 101; 110; 32; 108; 111; 110; 103; 101; 114; 32; 99; 111; 109; 109; 101; 110; 116; 115; 63; 10; 10; 108; 105; 107; 101; 10; 111; 110; 10; 97; 10; 108; 111; 116; 10; 111; 102; 10; 108; 105; 110; 101; 115; 33; 10; 10; 70; 117; 110; 33; 10; 42; 47; 10; 102; 117; 110; 99; 116; 105; 111; 110; 32; 102; 97; 114; 95; 97; 119; 97; 121; 40; 120; 44; 32; 121; 41; 32; 123; 10; 32; 32; 32; 32; 118; 97; 114; 32; 120; 50; 32; 61; 32; 120; 32; 43; 32; 52; 59; 10; 32; 32; 32; 32; 114; 101; 116; 117; 114; 110; 32; 120; 32; 42; 32; 120; 50; 32; 43; 32; 121; 59; 10; 125; 10; 10; 47; 47; 32; 116; 104; 105; 115; 32; 99; 97; 108; 108; 32; 105; 115; 32; 117; 115; 101; 108; 101; 115; 115; 10; 102; 97; 114; 95; 97; 119; 97; 121; 40; 97; 110; 111; 116; 104; 101; 114; 95; 118; 97; 114; 44; 32; 49; 50; 41; 59; 10; 47; 47; 32; 116; 104; 105; 115; 32; 99; 97; 108; 108; 32; 105; 115; 32; 117; 115; 101; 108; 101; 115; 115; 32; 116; 111; 111; 10; 102; 97; 114; 95; 97; 119; 97; 121; 40; 97; 110; 111; 116; 104; 101; 114; 95; 118; 97; 114; 44; 32; 49; 50; 41; 59; 10] = Ok [118; 97; 114; 32; 102; 111; 111; 61; 34; 115; 111; 109; 101; 116; 104; 105; 110; 103; 34; 59; 118; 97; 114; 32; 97; 110; 111; 116; 104; 101; 114; 95; 118; 97; 114; 61; 50; 51; 52; 56; 51; 50; 51; 59; 102; 117; 110; 99; 116; 105; 111; 110; 32; 102; 97; 114; 95; 97; 119; 97; 121; 40; 120; 44; 121; 41; 123; 118; 97; 114; 32; 120; 50; 61; 120; 43; 52; 59; 114; 101; 116; 117; 114; 110; 32; 120; 42; 120; 50; 43; 121; 59; 125; 102; 97; 114; 95; 97; 119; 97; 121; 40; 97; 110; 111; 116; 104; 101; 114; 95; 118; 97; 114; 44; 49; 50; 41; 59; 102; 97; 114; 95; 97; 119; 97; 121; 40; 97; 110; 111; 116; 104; 101; 114; 95; 118; 97; 114; 44; 49; 50; 41; 59].
Proof. vm_compute. reflexivity. Qed.

Example unit_another_js_test_1 : js_minify [10; 47; 42; 33; 32; 108; 101; 116; 39; 115; 32; 107; 101; 101; 112; 32; 116; 104; 105; 115; 32; 108; 105; 99; 101; 110; 115; 101; 10; 32; 42; 10; 32; 42; 32; 98; 101; 99; 97; 117; 115; 101; 32; 101; 118; 101; 114; 121; 111; 110; 101; 32; 108; 105; 107; 101; 115; 32; 108; 105; 99; 101; 110; 115; 101; 115; 33; 10; 32; 42; 10; 32; 42; 32; 114; 105; 103; 104; 116; 63; 10; 32; 42; 47; 10; 10; 102; 117; 110; 99; 116; 105; 111; 110; 32; 102; 111; 114; 69; 97; 99; 104; 40; 100; 97; 116; 97; 44; 32; 102; 117; 110; 99; 41; 32; 123; 10; 32; 32; 32; 32; 102; 111; 114; 32; 40; 118; 97; 114; 32; 105; 32; 61; 32; 48; 59; 32; 105; 32; 60; 32; 100; 97; 116; 97; 46; 108; 101; 110; 103; 116; 104; 59; 32; 43; 43; 105; 41; 32; 123; 10; 32; 32; 32; 32; 32; 32; 32; 32; 102; 117; 110; 99; 40; 100; 97; 116; 97; 91; 105; 93; 41; 59; 10; 32; 32; 32; 32; 125; 10; 125; 10; 10; 102; 111; 114; 69; 97; 99; 104; 40; 91; 48; 44; 32; 49; 44; 32; 50; 44; 32; 51; 44; 32; 52; 44; 10; 32; 32; 32; 32; 32; 32; 32; 32; 32; 53; 44; 32; 54; 44; 32; 55; 44; 32; 56; 44; 32; 57; 93; 44; 32; 102; 117; 110; 99; 116; 105; 111; 110; 32; 40; 120; 41; 32; 123; 10; 32; 32; 32; 32; 32; 32; 32; 32; 32; 32; 32; 32; 99; 111; 110; 115; 111; 108; 101; 46; 108; 111; 103; 40; 120; 41; 59; 10; 32; 32; 32; 32; 32; 32; 32; 32; 32; 125; 41; 59; 10; 47; 47; 32; 73; 32; 116; 104; 105; 110; 107; 32; 119; 101; 39; 114; 101; 32; 100; 111; 110; 101; 63; 10; 99; 111; 110; 115; 111; 108; 101; 46; 108; 111; 103; 40; 39; 100; 111; 110; 101; 33; 39; 41; 59; 10] = Ok [47; 42; 33; 32; 108; 101; 116; 39; 115; 32; 107; 101; 101; 112; 32; 116; 104; 105; 115; 32; 108; 105; 99; 101; 110; 115; 101; 10; 32; 42; 10; 32; 42; 32; 98; 101; 99; 97; 117; 115; 101; 32; 101; 118; 101; 114; 121; 111; 110; 101; 32; 108; 105; 107; 101; 115; 32; 108; 105; 99; 101; 110; 115; 101; 115; 33; 10; 32; 42; 10; 32; 42; 32; 114; 105; 103; 104; 116; 63; 10; 32; 42; 47; 102; 117; 110; 99; 116; 105; 111; 110; 32; 102; 111; 114; 69; 97; 99; 104; 40; 100; 97; 116; 97; 44; 102; 117; 110; 99; 41; 123; 102; 111; 114; 40; 118; 97; 114; 32; 105; 61; 48; 59; 105; 60; 100; 97; 116; 97; 46; 108; 101; 110; 103; 116; 104; 59; 43; 43; 105; 41; 123; 102; 117; 110; 99; 40; 100; 97; 116; 97; 91; 105; 93; 41; 59; 125; 125; 102; 111; 114; 69; 97; 99; 104; 40; 91; 48; 44; 49; 44; 50; 44; 51; 44; 52; 44; 53; 44; 54; 44; 55; 44; 56; 44; 57; 93; 44; 102; 117; 110; 99; 116; 105; 111; 110; 40; 120; 41; 123; 99; 111; 110; 115; 111; 108; 101; 46; 108; 111; 103; 40; 120; 41; 59; 125; 41; 59; 99; 111; 110; 115; 111; 108; 101; 46; 108; 111; 103; 40; 39; 100; 111; 110; 101; 33; 39; 41; 59].
Proof. vm_compute. reflexivity. Qed.

Example unit_comment_issue_1 : js_minify [10; 115; 101; 97; 114; 99; 104; 95; 105; 110; 112; 117; 116; 46; 111; 110; 99; 104; 97; 110; 103; 101; 32; 61; 32; 102; 117; 110; 99; 116; 105; 111; 110; 40; 101; 41; 32; 123; 10; 32; 32; 32; 32; 47; 47; 32; 68; 111; 32; 78; 79; 84; 32; 101; 46; 112; 114; 101; 118; 101; 110; 116; 68; 101; 102; 97; 117; 108; 116; 40; 41; 32; 104; 101; 114; 101; 46; 32; 73; 116; 32; 119; 105; 108; 108; 32; 112; 114; 101; 118; 101; 110; 116; 32; 112; 97; 115; 116; 105; 110; 103; 46; 10; 32; 32; 32; 32; 99; 108; 101; 97; 114; 84; 105; 109; 101; 111; 117; 116; 40; 115; 101; 97; 114; 99; 104; 84; 105; 109; 101; 111; 117; 116; 41; 59; 10; 32; 32; 32; 32; 47; 47; 32; 122; 101; 114; 111; 45; 116; 105; 109; 101; 111; 117; 116; 32; 110; 101; 99; 101; 115; 115; 97; 114; 121; 32; 104; 101; 114; 101; 32; 98; 101; 99; 97; 117; 115; 101; 32; 97; 116; 32; 116; 104; 101; 32; 116; 105; 109; 101; 32; 111; 102; 32; 101; 118; 101; 110; 116; 32; 104; 97; 110; 100; 108; 101; 114; 32; 101; 120; 101; 99; 117; 116; 105; 111; 110; 32; 116; 104; 101; 10; 32; 32; 32; 32; 47; 47; 32; 112; 97; 115; 116; 101; 100; 32; 99; 111; 110; 116; 101; 110; 116; 32; 105; 115; 32; 110; 111; 116; 32; 105; 110; 32; 116; 104; 101; 32; 105; 110; 112; 117; 116; 32; 102; 105; 101; 108; 100; 32; 121; 101; 116; 46; 32; 83; 104; 111; 117; 108; 100; 110; 8217; 116; 32; 109; 97; 107; 101; 32; 97; 110; 121; 32; 100; 105; 102; 102; 101; 114; 101; 110; 99; 101; 32; 102; 111; 114; 10; 32; 32; 32; 32; 47; 47; 32; 99; 104; 97; 110; 103; 101; 44; 32; 116; 104; 111; 117; 103; 104; 46; 10; 32; 32; 32; 32; 115; 101; 116; 84; 105; 109; 101; 111; 117; 116; 40; 115; 101; 97; 114; 99; 104; 44; 32; 48; 41; 59; 10; 125; 59; 10] = Ok [115; 101; 97; 114; 99; 104; 95; 105; 110; 112; 117; 116; 46; 111; 110; 99; 104; 97; 110; 103; 101; 61; 102; 117; 110; 99; 116; 105; 111; 110; 40; 101; 41; 123; 99; 108; 101; 97; 114; 84; 105; 109; 101; 111; 117; 116; 40; 115; 101; 97; 114; 99; 104; 84; 105; 109; 101; 111; 117; 116; 41; 59; 115; 101; 116; 84; 105; 109; 101; 111; 117; 116; 40; 115; 101; 97; 114; 99; 104; 44; 48; 41; 59; 125; 59].
Proof. vm_compute. reflexivity. Qed.

Example unit_missing_whitespace_1 : js_minify [10; 102; 111; 114; 32; 40; 118; 97; 114; 32; 101; 110; 116; 114; 121; 32; 105; 110; 32; 114; 101; 115; 117; 108; 116; 115; 41; 32; 123; 10; 32; 32; 32; 32; 105; 102; 32; 40; 114; 101; 115; 117; 108; 116; 115; 46; 104; 97; 115; 79; 119; 110; 80; 114; 111; 112; 101; 114; 116; 121; 40; 101; 110; 116; 114; 121; 41; 41; 32; 123; 10; 32; 32; 32; 32; 32; 32; 32; 32; 97; 114; 46; 112; 117; 115; 104; 40; 114; 101; 115; 117; 108; 116; 115; 91; 101; 110; 116; 114; 121; 93; 41; 59; 10; 32; 32; 32; 32; 125; 10; 125] = Ok [102; 111; 114; 40; 118; 97; 114; 32; 101; 110; 116; 114; 121; 32; 105; 110; 32; 114; 101; 115; 117; 108; 116; 115; 41; 123; 105; 102; 40; 114; 101; 115; 117; 108; 116; 115; 46; 104; 97; 115; 79; 119; 110; 80; 114; 111; 112; 101; 114; 116; 121; 40; 101; 110; 116; 114; 121; 41; 41; 123; 97; 114; 46; 112; 117; 115; 104; 40; 114; 101; 115; 117; 108; 116; 115; 91; 101; 110; 116; 114; 121; 93; 41; 59; 125; 125].
Proof. vm_compute. reflexivity. Qed.

Example unit_weird_regex_issue_1 : js_minify [10; 118; 97; 108; 32; 61; 32; 118; 97; 108; 46; 114; 101; 112; 108; 97; 99; 101; 40; 47; 92; 95; 47; 103; 44; 32; 34; 34; 41; 59; 10; 10; 118; 97; 114; 32; 118; 97; 108; 71; 101; 110; 101; 114; 105; 99; 115; 32; 61; 32; 101; 120; 116; 114; 97; 99; 116; 71; 101; 110; 101; 114; 105; 99; 115; 40; 118; 97; 108; 41; 59] = Ok [118; 97; 108; 61; 118; 97; 108; 46; 114; 101; 112; 108; 97; 99; 101; 40; 47; 92; 95; 47; 103; 44; 34; 34; 41; 59; 118; 97; 114; 32; 118; 97; 108; 71; 101; 110; 101; 114; 105; 99; 115; 61; 101; 120; 116; 114; 97; 99; 116; 71; 101; 110; 101; 114; 105; 99; 115; 40; 118; 97; 108; 41; 59].
Proof. vm_compute. reflexivity. Qed.

Example unit_keep_space_1 : js_minify [114; 101; 116; 117; 114; 110; 32; 49; 50; 59; 114; 101; 116; 117; 114; 110; 32; 120; 59] = Ok [114; 101; 116; 117; 114; 110; 32; 49; 50; 59; 114; 101; 116; 117; 114; 110; 32; 120; 59].
Proof. vm_compute. reflexivity. Qed.

Example unit_keep_space_write_1 : js_write [114; 101; 116; 117; 114; 110; 32; 49; 50; 59; 114; 101; 116; 117; 114; 110; 32; 120; 59] [] = Ok (encode [114; 101; 116; 117; 114; 110; 32; 49; 50; 59; 114; 101; 116; 117; 114; 110; 32; 120; 59], true).
Proof. vm_compute. reflexivity. Qed.

Example unit_keep_space_2 : js_minify [116; 32; 105; 110; 32; 101] = Ok [116; 32; 105; 110; 32; 101].
Proof. vm_compute. reflexivity. Qed.

Example unit_keep_space_write_2 : js_write [116; 32; 105; 110; 32; 101] [] = Ok (encode [116; 32; 105; 110; 32; 101], true).
Proof. vm_compute. reflexivity. Qed.

Example unit_keep_space_3 : js_minify [116; 32; 43; 32; 49; 32; 105; 110; 32; 101] = Ok [116; 43; 49; 32; 105; 110; 32; 101].
Proof. vm_compute. reflexivity. Qed.

Example unit_keep_space_write_3 : js_write [116; 32; 43; 32; 49; 32; 105; 110; 32; 101] [] = Ok (encode [116; 43; 49; 32; 105; 110; 32; 101], true).
Proof. vm_compute. reflexivity. Qed.

Example unit_keep_space_4 : js_minify [116; 32; 45; 32; 49; 32; 105; 110; 32; 101] = Ok [116; 45; 49; 32; 105; 110; 32; 101].
Proof. vm_compute. reflexivity. Qed.

Example unit_keep_space_write_4 : js_write [116; 32; 45; 32; 49; 32; 105; 110; 32; 101] [] = Ok (encode [116; 45; 49; 32; 105; 110; 32; 101], true).
Proof. vm_compute. reflexivity. Qed.

Example unit_keep_space_5 : js_minify [39; 97; 39; 32; 105; 110; 32; 101] = Ok [39; 97; 39; 105; 110; 32; 101].
Proof. vm_compute. reflexivity. Qed.

Example unit_keep_space_write_5 : js_write [39; 97; 39; 32; 105; 110; 32; 101] [] = Ok (encode [39; 97; 39; 105; 110; 32; 101], true).
Proof. vm_compute. reflexivity. Qed.

Example unit_keep_space_6 : js_minify [47; 97; 47; 103; 32; 105; 110; 32; 101] = Ok [47; 97; 47; 103; 32; 105; 110; 32; 101].
Proof. vm_compute. reflexivity. Qed.

Example unit_keep_space_write_6 : js_write [47; 97; 47; 103; 32; 105; 110; 32; 101] [] = Ok (encode [47; 97; 47; 103; 32; 105; 110; 32; 101], true).
Proof. vm_compute. reflexivity. Qed.

Example unit_keep_space_7 : js_minify [47; 97; 47; 105; 32; 105; 110; 32; 101] = Ok [47; 97; 47; 105; 32; 105; 110; 32; 101].
Proof. vm_compute. reflexivity. Qed.

Example unit_keep_space_write_7 : js_write [47; 97; 47; 105; 32; 105; 110; 32; 101] [] = Ok (encode [47; 97; 47; 105; 32; 105; 110; 32; 101], true).
Proof. vm_compute. reflexivity. Qed.

Example unit_keep_space_8 : js_minify [116; 32; 105; 110; 115; 116; 97; 110; 99; 101; 111; 102; 32; 101] = Ok [116; 32; 105; 110; 115; 116; 97; 110; 99; 101; 111; 102; 32; 101].
Proof. vm_compute. reflexivity. Qed.

Example unit_keep_space_write_8 : js_write [116; 32; 105; 110; 115; 116; 97; 110; 99; 101; 111; 102; 32; 101] [] = Ok (encode [116; 32; 105; 110; 115; 116; 97; 110; 99; 101; 111; 102; 32; 101], true).
Proof. vm_compute. reflexivity. Qed.

Example unit_keep_space_9 : js_minify [116; 32; 43; 32; 49; 32; 105; 110; 115; 116; 97; 110; 99; 101; 111; 102; 32; 101] = Ok [116; 43; 49; 32; 105; 110; 115; 116; 97; 110; 99; 101; 111; 102; 32; 101].
Proof. vm_compute. reflexivity. Qed.

Example unit_keep_space_write_9 : js_write [116; 32; 43; 32; 49; 32; 105; 110; 115; 116; 97; 110; 99; 101; 111; 102; 32; 101] [] = Ok (encode [116; 43; 49; 32; 105; 110; 115; 116; 97; 110; 99; 101; 111; 102; 32; 101], true).
Proof. vm_compute. reflexivity. Qed.

Example unit_keep_space_10 : js_minify [116; 32; 45; 32; 49; 32; 105; 110; 115; 116; 97; 110; 99; 101; 111; 102; 32; 101] = Ok [116; 45; 49; 32; 105; 110; 115; 116; 97; 110; 99; 101; 111; 102; 32; 101].
Proof. vm_compute. reflexivity. Qed.

Example unit_keep_space_write_10 : js_write [116; 32; 45; 32; 49; 32; 105; 110; 115; 116; 97; 110; 99; 101; 111; 102; 32; 101] [] = Ok (encode [116; 45; 49; 32; 105; 110; 115; 116; 97; 110; 99; 101; 111; 102; 32; 101], true).
Proof. vm_compute. reflexivity. Qed.

Example unit_keep_space_11 : js_minify [39; 97; 39; 32; 105; 110; 115; 116; 97; 110; 99; 101; 111; 102; 32; 101] = Ok [39; 97; 39; 105; 110; 115; 116; 97; 110; 99; 101; 111; 102; 32; 101].
Proof. vm_compute. reflexivity. Qed.

Example unit_keep_space_write_11 : js_write [39; 97; 39; 32; 105; 110; 115; 116; 97; 110; 99; 101; 111; 102; 32; 101] [] = Ok (encode [39; 97; 39; 105; 110; 115; 116; 97; 110; 99; 101; 111; 102; 32; 101], true).
Proof. vm_compute. reflexivity. Qed.

Example unit_keep_space_12 : js_minify [47; 97; 47; 103; 32; 105; 110; 115; 116; 97; 110; 99; 101; 111; 102; 32; 101] = Ok [47; 97; 47; 103; 32; 105; 110; 115; 116; 97; 110; 99; 101; 111; 102; 32; 101].
Proof. vm_compute. reflexivity. Qed.

Example unit_keep_space_write_12 : js_write [47; 97; 47; 103; 32; 105; 110; 115; 116; 97; 110; 99; 101; 111; 102; 32; 101] [] = Ok (encode [47; 97; 47; 103; 32; 105; 110; 115; 116; 97; 110; 99; 101; 111; 102; 32; 101], true).
Proof. vm_compute. reflexivity. Qed.

Example unit_keep_space_13 : js_minify [47; 97; 47; 105; 32; 105; 110; 115; 116; 97; 110; 99; 101; 111; 102; 32; 101] = Ok [47; 97; 47; 105; 32; 105; 110; 115; 116; 97; 110; 99; 101; 111; 102; 32; 101].
Proof. vm_compute. reflexivity. Qed.

Example unit_keep_space_write_13 : js_write [47; 97; 47; 105; 32; 105; 110; 115; 116; 97; 110; 99; 101; 111; 102; 32; 101] [] = Ok (encode [47; 97; 47; 105; 32; 105; 110; 115; 116; 97; 110; 99; 101; 111; 102; 32; 101], true).
Proof. vm_compute. reflexivity. Qed.

Example unit_keep_space_14 : js_minify [102; 117; 110; 99; 116; 105; 111; 110; 32; 102; 111; 111; 40; 41; 32; 123; 32; 108; 101; 116; 32; 120; 32; 61; 32; 49; 50; 59; 32; 125] = Ok [102; 117; 110; 99; 116; 105; 111; 110; 32; 102; 111; 111; 40; 41; 123; 108; 101; 116; 32; 120; 61; 49; 50; 59; 125].
Proof. vm_compute. reflexivity. Qed.

Example unit_keep_space_write_14 : js_write [102; 117; 110; 99; 116; 105; 111; 110; 32; 102; 111; 111; 40; 41; 32; 123; 32; 108; 101; 116; 32; 120; 32; 61; 32; 49; 50; 59; 32; 125] [] = Ok (encode [102; 117; 110; 99; 116; 105; 111; 110; 32; 102; 111; 111; 40; 41; 123; 108; 101; 116; 32; 120; 61; 49; 50; 59; 125], true).
Proof. vm_compute. reflexivity. Qed.

Example unit_keep_space_15 : js_minify [34; 117; 115; 101; 32; 115; 116; 114; 105; 99; 116; 34; 59; 10; 10; 40; 102; 117; 110; 99; 116; 105; 111; 110; 40; 41; 32; 123; 10; 32; 32; 32; 32; 99; 111; 110; 115; 116; 32; 105; 116; 101; 109; 84; 121; 112; 101; 115; 32; 61; 32; 91; 10; 32; 32; 32; 32; 32; 32; 32; 32; 34; 109; 111; 100; 34; 44; 10; 32; 32; 32; 32; 32; 32; 32; 32; 34; 101; 120; 116; 101; 114; 110; 99; 114; 97; 116; 101; 34; 44; 10; 32; 32; 32; 32; 32; 32; 32; 32; 34; 105; 109; 112; 111; 114; 116; 34; 44; 10; 32; 32; 32; 32; 32; 32; 32; 32; 34; 115; 116; 114; 117; 99; 116; 34; 44; 10; 32; 32; 32; 32; 93; 59; 10; 32; 32; 32; 32; 99; 111; 110; 115; 116; 32; 84; 89; 95; 80; 82; 73; 77; 73; 84; 73; 86; 69; 32; 61; 32; 105; 116; 101; 109; 84; 121; 112; 101; 115; 59; 10; 32; 32; 32; 32; 102; 117; 110; 99; 116; 105; 111; 110; 32; 104; 97; 115; 79; 119; 110; 80; 114; 111; 112; 101; 114; 116; 121; 82; 117; 115; 116; 100; 111; 99; 40; 41; 32; 123; 125; 10; 125; 41; 40; 41; 59] = Ok [34; 117; 115; 101; 32; 115; 116; 114; 105; 99; 116; 34; 59; 40; 102; 117; 110; 99; 116; 105; 111; 110; 40; 41; 123; 99; 111; 110; 115; 116; 32; 105; 116; 101; 109; 84; 121; 112; 101; 115; 61; 91; 34; 109; 111; 100; 34; 44; 34; 101; 120; 116; 101; 114; 110; 99; 114; 97; 116; 101; 34; 44; 34; 105; 109; 112; 111; 114; 116; 34; 44; 34; 115; 116; 114; 117; 99; 116; 34; 44; 93; 59; 99; 111; 110; 115; 116; 32; 84; 89; 95; 80; 82; 73; 77; 73; 84; 73; 86; 69; 61; 105; 116; 101; 109; 84; 121; 112; 101; 115; 59; 102; 117; 110; 99; 116; 105; 111; 110; 32; 104; 97; 115; 79; 119; 110; 80; 114; 111; 112; 101; 114; 116; 121; 82; 117; 115; 116; 100; 111; 99; 40; 41; 123; 125; 125; 41; 40; 41; 59].
Proof. vm_compute. reflexivity. Qed.

Example unit_keep_space_write_15 : js_write [34; 117; 115; 101; 32; 115; 116; 114; 105; 99; 116; 34; 59; 10; 10; 40; 102; 117; 110; 99; 116; 105; 111; 110; 40; 41; 32; 123; 10; 32; 32; 32; 32; 99; 111; 110; 115; 116; 32; 105; 116; 101; 109; 84; 121; 112; 101; 115; 32; 61; 32; 91; 10; 32; 32; 32; 32; 32; 32; 32; 32; 34; 109; 111; 100; 34; 44; 10; 32; 32; 32; 32; 32; 32; 32; 32; 34; 101; 120; 116; 101; 114; 110; 99; 114; 97; 116; 101; 34; 44; 10; 32; 32; 32; 32; 32; 32; 32; 32; 34; 105; 109; 112; 111; 114; 116; 34; 44; 10; 32; 32; 32; 32; 32; 32; 32; 32; 34; 115; 116; 114; 117; 99; 116; 34; 44; 10; 32; 32; 32; 32; 93; 59; 10; 32; 32; 32; 32; 99; 111; 110; 115; 116; 32; 84; 89; 95; 80; 82; 73; 77; 73; 84; 73; 86; 69; 32; 61; 32; 105; 116; 101; 109; 84; 121; 112; 101; 115; 59; 10; 32; 32; 32; 32; 102; 117; 110; 99; 116; 105; 111; 110; 32; 104; 97; 115; 79; 119; 110; 80; 114; 111; 112; 101; 114; 116; 121; 82; 117; 115; 116; 100; 111; 99; 40; 41; 32; 123; 125; 10; 125; 41; 40; 41; 59] [] = Ok (encode [34; 117; 115; 101; 32; 115; 116; 114; 105; 99; 116; 34; 59; 40; 102; 117; 110; 99; 116; 105; 111; 110; 40; 41; 123; 99; 111; 110; 115; 116; 32; 105; 116; 101; 109; 84; 121; 112; 101; 115; 61; 91; 34; 109; 111; 100; 34; 44; 34; 101; 120; 116; 101; 114; 110; 99; 114; 97; 116; 101; 34; 44; 34; 105; 109; 112; 111; 114; 116; 34; 44; 34; 115; 116; 114; 117; 99; 116; 34; 44; 93; 59; 99; 111; 110; 115; 116; 32; 84; 89; 95; 80; 82; 73; 77; 73; 84; 73; 86; 69; 61; 105; 116; 101; 109; 84; 121; 112; 101; 115; 59; 102; 117; 110; 99; 116; 105; 111; 110; 32; 104; 97; 115; 79; 119; 110; 80; 114; 111; 112; 101; 114; 116; 121; 82; 117; 115; 116; 100; 111; 99; 40; 41; 123; 125; 125; 41; 40; 41; 59], true).
Proof. vm_compute. reflexivity. Qed.

Example unit_test_remove_extra_whitespace_before_typeof_1 : js_minify [118; 97; 114; 32; 120; 32; 61; 32; 116; 121; 112; 101; 111; 102; 32; 39; 102; 111; 111; 39; 59; 118; 97; 114; 32; 121; 32; 61; 32; 116; 121; 112; 101; 111; 102; 32; 120; 59; 99; 97; 115; 101; 32; 116; 121; 112; 101; 111; 102; 32; 39; 102; 111; 111; 39; 58; 32; 39; 98; 108; 97; 39] = Ok [118; 97; 114; 32; 120; 61; 116; 121; 112; 101; 111; 102; 39; 102; 111; 111; 39; 59; 118; 97; 114; 32; 121; 61; 116; 121; 112; 101; 111; 102; 32; 120; 59; 99; 97; 115; 101; 32; 116; 121; 112; 101; 111; 102; 39; 102; 111; 111; 39; 58; 39; 98; 108; 97; 39].
Proof. vm_compute. reflexivity. Qed.

Example unit_test_remove_extra_whitespace_before_in_1 : js_minify [105; 102; 32; 40; 34; 107; 101; 121; 34; 32; 105; 110; 32; 101; 118; 32; 38; 38; 32; 116; 121; 112; 101; 111; 102; 32; 101; 118; 41; 32; 123; 32; 114; 101; 116; 117; 114; 110; 32; 116; 114; 117; 101; 59; 32; 125; 10; 105; 102; 32; 40; 120; 32; 105; 110; 32; 101; 118; 32; 38; 38; 32; 116; 121; 112; 101; 111; 102; 32; 101; 118; 41; 32; 123; 32; 114; 101; 116; 117; 114; 110; 32; 116; 114; 117; 101; 59; 32; 125; 10; 105; 102; 32; 40; 116; 114; 117; 101; 32; 105; 110; 32; 101; 118; 41; 32; 123; 32; 114; 101; 116; 117; 114; 110; 32; 116; 114; 117; 101; 59; 32; 125] = Ok [105; 102; 40; 34; 107; 101; 121; 34; 105; 110; 32; 101; 118; 38; 38; 116; 121; 112; 101; 111; 102; 32; 101; 118; 41; 123; 114; 101; 116; 117; 114; 110; 32; 116; 114; 117; 101; 59; 125; 105; 102; 40; 120; 32; 105; 110; 32; 101; 118; 38; 38; 116; 121; 112; 101; 111; 102; 32; 101; 118; 41; 123; 114; 101; 116; 117; 114; 110; 32; 116; 114; 117; 101; 59; 125; 105; 102; 40; 116; 114; 117; 101; 32; 105; 110; 32; 101; 118; 41; 123; 114; 101; 116; 117; 114; 110; 32; 116; 114; 117; 101; 59; 125].
Proof. vm_compute. reflexivity. Qed.

Example unit_test_remove_extra_whitespace_before_operator_1 : js_minify [40; 32; 120; 32; 41; 32; 47; 32; 50; 59; 32; 120; 32; 47; 32; 121; 59; 120; 32; 47; 61; 32; 121] = Ok [40; 120; 41; 47; 50; 59; 120; 47; 121; 59; 120; 47; 61; 121].
Proof. vm_compute. reflexivity. Qed.

Example unit_check_regex_syntax_1 : js_minify [99; 111; 110; 115; 111; 108; 101; 46; 108; 111; 103; 40; 47; 77; 83; 73; 69; 124; 84; 114; 105; 100; 101; 110; 116; 124; 69; 100; 103; 101; 47; 46; 116; 101; 115; 116; 40; 119; 105; 110; 100; 111; 119; 46; 110; 97; 118; 105; 103; 97; 116; 111; 114; 46; 117; 115; 101; 114; 65; 103; 101; 110; 116; 41; 41; 59] = Ok [99; 111; 110; 115; 111; 108; 101; 46; 108; 111; 103; 40; 47; 77; 83; 73; 69; 124; 84; 114; 105; 100; 101; 110; 116; 124; 69; 100; 103; 101; 47; 46; 116; 101; 115; 116; 40; 119; 105; 110; 100; 111; 119; 46; 110; 97; 118; 105; 103; 97; 116; 111; 114; 46; 117; 115; 101; 114; 65; 103; 101; 110; 116; 41; 41; 59].
Proof. vm_compute. reflexivity. Qed.

Example unit_minify_minified_1 : js_minify [102; 117; 110; 99; 116; 105; 111; 110; 32; 40; 105; 44; 32; 110; 44; 32; 97; 41; 32; 123; 32; 105; 91; 110; 93; 46; 116; 121; 112; 101; 46; 114; 101; 112; 108; 97; 99; 101; 40; 47; 32; 42; 59; 40; 46; 124; 92; 115; 41; 42; 47; 44; 34; 34; 41; 61; 61; 61; 116; 38; 38; 97; 46; 112; 117; 115; 104; 40; 105; 91; 110; 93; 46; 77; 97; 116; 104; 74; 97; 120; 46; 101; 108; 101; 109; 101; 110; 116; 74; 97; 120; 41; 59; 114; 101; 116; 117; 114; 110; 32; 97; 125] = Ok [102; 117; 110; 99; 116; 105; 111; 110; 40; 105; 44; 110; 44; 97; 41; 123; 105; 91; 110; 93; 46; 116; 121; 112; 101; 46; 114; 101; 112; 108; 97; 99; 101; 40; 47; 32; 42; 59; 40; 46; 124; 92; 115; 41; 42; 47; 44; 34; 34; 41; 61; 61; 61; 116; 38; 38; 97; 46; 112; 117; 115; 104; 40; 105; 91; 110; 93; 46; 77; 97; 116; 104; 74; 97; 120; 46; 101; 108; 101; 109; 101; 110; 116; 74; 97; 120; 41; 59; 114; 101; 116; 117; 114; 110; 32; 97; 125].
Proof. vm_compute. reflexivity. Qed.

Example unit_check_string_1 : js_minify [10; 32; 32; 32; 32; 32; 32; 32; 32; 99; 111; 110; 115; 116; 32; 97; 32; 61; 32; 49; 50; 51; 59; 10; 32; 32; 32; 32; 32; 32; 32; 32; 99; 111; 110; 115; 116; 32; 98; 32; 61; 32; 34; 49; 50; 51; 34; 59; 10; 32; 32; 32; 32; 32; 32; 32; 32; 99; 111; 110; 115; 116; 32; 99; 32; 61; 32; 96; 116; 104; 101; 32; 110; 117; 109; 98; 101; 114; 32; 105; 115; 32; 36; 123; 97; 125; 32; 32; 60; 45; 45; 32; 110; 111; 116; 101; 32; 116; 104; 101; 32; 115; 112; 97; 99; 101; 115; 32; 104; 101; 114; 101; 96; 59; 10; 32; 32; 32; 32; 32; 32; 32; 32; 99; 111; 110; 115; 116; 32; 100; 32; 61; 32; 96; 32; 32; 32; 32; 32; 32; 36; 123; 97; 125; 32; 32; 32; 32; 32; 32; 32; 32; 32; 36; 123; 98; 125; 32; 32; 32; 32; 32; 32; 96; 59; 10; 32; 32; 32; 32] = Ok [99; 111; 110; 115; 116; 32; 97; 61; 49; 50; 51; 59; 99; 111; 110; 115; 116; 32; 98; 61; 34; 49; 50; 51; 34; 59; 99; 111; 110; 115; 116; 32; 99; 61; 96; 116; 104; 101; 32; 110; 117; 109; 98; 101; 114; 32; 105; 115; 32; 36; 123; 97; 125; 32; 32; 60; 45; 45; 32; 110; 111; 116; 101; 32; 116; 104; 101; 32; 115; 112; 97; 99; 101; 115; 32; 104; 101; 114; 101; 96; 59; 99; 111; 110; 115; 116; 32; 100; 61; 96; 32; 32; 32; 32; 32; 32; 36; 123; 97; 125; 32; 32; 32; 32; 32; 32; 32; 32; 32; 36; 123; 98; 125; 32; 32; 32; 32; 32; 32; 96; 59].
Proof. vm_compute. reflexivity. Qed.

Example unit_test_loops_1 : js_minify [102; 111; 114; 32; 40; 59; 32; 98; 40; 41; 32; 59; 41; 59] = Ok [102; 111; 114; 40; 59; 98; 40; 41; 59; 41; 59].
Proof. vm_compute. reflexivity. Qed.

Example unit_test_loops_2 : js_minify [119; 104; 105; 108; 101; 32; 40; 98; 40; 41; 41; 59] = Ok [119; 104; 105; 108; 101; 40; 98; 40; 41; 41; 59].
Proof. vm_compute. reflexivity. Qed.

Example unit_test_loops_3 : js_minify [10; 102; 117; 110; 99; 116; 105; 111; 110; 32; 97; 40; 41; 32; 123; 10; 32; 32; 32; 32; 102; 111; 114; 32; 40; 59; 32; 98; 40; 41; 32; 59; 41; 59; 10; 32; 32; 32; 32; 119; 104; 105; 108; 101; 32; 40; 98; 40; 41; 41; 59; 10; 125] = Ok [102; 117; 110; 99; 116; 105; 111; 110; 32; 97; 40; 41; 123; 102; 111; 114; 40; 59; 98; 40; 41; 59; 41; 59; 119; 104; 105; 108; 101; 40; 98; 40; 41; 41; 59; 125].
Proof. vm_compute. reflexivity. Qed.

Example unit_test_loops_4 : js_minify [10; 102; 117; 110; 99; 116; 105; 111; 110; 32; 97; 40; 41; 32; 123; 10; 32; 32; 32; 32; 102; 111; 114; 32; 40; 59; 32; 98; 40; 41; 32; 59; 41; 59; 10; 125] = Ok [102; 117; 110; 99; 116; 105; 111; 110; 32; 97; 40; 41; 123; 102; 111; 114; 40; 59; 98; 40; 41; 59; 41; 59; 125].
Proof. vm_compute. reflexivity. Qed.

Example unit_test_loops_5 : js_minify [10; 102; 117; 110; 99; 116; 105; 111; 110; 32; 97; 40; 41; 32; 123; 10; 32; 32; 32; 32; 119; 104; 105; 108; 101; 32; 40; 98; 40; 41; 41; 59; 10; 125] = Ok [102; 117; 110; 99; 116; 105; 111; 110; 32; 97; 40; 41; 123; 119; 104; 105; 108; 101; 40; 98; 40; 41; 41; 59; 125].
Proof. vm_compute. reflexivity. Qed.

Example unit_check_regex_minify_1 : js_minify [118; 97; 114; 32; 120; 32; 61; 32; 47; 34; 92; 46; 120; 47; 103; 59] = Ok [118; 97; 114; 32; 120; 61; 47; 34; 92; 46; 120; 47; 103; 59].
Proof. vm_compute. reflexivity. Qed.

Example unit_check_regex_1 : (let! ts := cleaned (tokenize [118; 97; 114; 32; 120; 32; 61; 32; 47; 34; 92; 46; 120; 47; 103; 59]) in index ts 3) = Ok (TRegex [34; 92; 46; 120] true false).
Proof. vm_compute. reflexivity. Qed.

Example unit_check_regex_minify_2 : js_minify [118; 97; 114; 32; 120; 32; 61; 32; 47; 34; 92; 46; 120; 47; 103; 105; 103; 105; 103; 105; 103; 105; 103; 59; 118; 97; 114; 32; 120; 32; 61; 32; 34; 104; 101; 108; 108; 111; 34; 59] = Ok [118; 97; 114; 32; 120; 61; 47; 34; 92; 46; 120; 47; 103; 105; 59; 118; 97; 114; 32; 120; 61; 34; 104; 101; 108; 108; 111; 34; 59].
Proof. vm_compute. reflexivity. Qed.

Example unit_check_regex_2 : (let! ts := cleaned (tokenize [118; 97; 114; 32; 120; 32; 61; 32; 47; 34; 92; 46; 120; 47; 103; 105; 103; 105; 103; 105; 103; 105; 103; 59; 118; 97; 114; 32; 120; 32; 61; 32; 34; 104; 101; 108; 108; 111; 34; 59]) in index ts 3) = Ok (TRegex [34; 92; 46; 120] true true).
Proof. vm_compute. reflexivity. Qed.

Example unit_more_regex_minify_1 : js_minify [118; 97; 114; 32; 120; 32; 61; 32; 47; 34; 92; 46; 120; 92; 47; 97; 47; 105; 59] = Ok [118; 97; 114; 32; 120; 61; 47; 34; 92; 46; 120; 92; 47; 97; 47; 105; 59].
Proof. vm_compute. reflexivity. Qed.

Example unit_more_regex_1 : (let! ts := cleaned (tokenize [118; 97; 114; 32; 120; 32; 61; 32; 47; 34; 92; 46; 120; 92; 47; 97; 47; 105; 59]) in index ts 3) = Ok (TRegex [34; 92; 46; 120; 92; 47; 97] false true).
Proof. vm_compute. reflexivity. Qed.

Example unit_more_regex_minify_2 : js_minify [118; 97; 114; 32; 120; 32; 61; 32; 47; 92; 92; 47; 105; 59] = Ok [118; 97; 114; 32; 120; 61; 47; 92; 92; 47; 105; 59].
Proof. vm_compute. reflexivity. Qed.

Example unit_more_regex_2 : (let! ts := cleaned (tokenize [118; 97; 114; 32; 120; 32; 61; 32; 47; 92; 92; 47; 105; 59]) in index ts 3) = Ok (TRegex [92; 92] false true).
Proof. vm_compute. reflexivity. Qed.

Example unit_even_more_regex_1 : (let! ts := cleaned (tokenize [118; 97; 114; 32; 120; 32; 61; 32; 47; 97; 45; 122; 32; 47; 59]) in index ts 3) = Ok (TRegex [97; 45; 122; 32] false false).
Proof. vm_compute. reflexivity. Qed.

Example unit_not_regex_test_1 : cleaned (tokenize [40; 32; 120; 32; 41; 32; 47; 32; 50; 59; 32; 120; 32; 47; 32; 121; 59; 120; 32; 47; 61; 32; 121]) = Ok [TChar OpenParenthese; TOther [120]; TChar CloseParenthese; TOperation Divide; TNumber 2; TChar SemiColon; TOther [120]; TOperation Divide; TOther [121]; TChar SemiColon; TOther [120]; TOperation DivideEqual; TOther [121]].
Proof. vm_compute. reflexivity. Qed.

Example unit_not_regex_test_2 : cleaned (tokenize [108; 101; 116; 32; 120; 32; 61; 32; 47; 120; 10; 121; 47; 59]) = Ok [TKeyword KLet; TOther [120]; TOperation Equal; TOperation Divide; TOther [120]; TOther [121]; TOperation Divide; TChar SemiColon].
Proof. vm_compute. reflexivity. Qed.

Example unit_test_tokens_parsing_1 : cleaned (tokenize [116; 114; 117; 101; 32; 61; 32; 61; 61; 32; 50; 46; 51; 32; 61; 61; 61; 32; 51; 50]) = Ok [TKeyword KTrue; TOperation Equal; TCondition EqualTo; TFloatingNumber [50; 46; 51]; TCondition SuperEqualTo; TNumber 32].
Proof. vm_compute. reflexivity. Qed.

Example unit_test_string_parsing_1 : cleaned (tokenize [118; 97; 114; 32; 120; 32; 61; 32; 39; 104; 101; 108; 108; 111; 32; 112; 101; 111; 112; 108; 101; 33; 39]) = Ok [TKeyword KVar; TOther [120]; TOperation Equal; TString [39; 104; 101; 108; 108; 111; 32; 112; 101; 111; 112; 108; 101; 33; 39]].
Proof. vm_compute. reflexivity. Qed.

Example unit_test_number_parsing_1 : cleaned (tokenize [118; 97; 114; 32; 120; 32; 61; 32; 46; 49; 50; 59; 32; 108; 101; 116; 32; 121; 32; 61; 32; 52; 46; 59; 32; 118; 97; 114; 32; 122; 32; 61; 32; 49; 50; 59; 32; 46; 51; 32; 52; 46; 32; 39; 97; 39; 32; 108; 101; 116; 32; 117; 32; 61; 32; 49; 50; 46; 50]) = Ok [TKeyword KVar; TOther [120]; TOperation Equal; TFloatingNumber [46; 49; 50]; TChar SemiColon; TKeyword KLet; TOther [121]; TOperation Equal; TFloatingNumber [52; 46]; TChar SemiColon; TKeyword KVar; TOther [122]; TOperation Equal; TNumber 12; TChar SemiColon; TFloatingNumber [46; 51]; TFloatingNumber [52; 46]; TString [39; 97; 39]; TKeyword KLet; TOther [117]; TOperation Equal; TFloatingNumber [49; 50; 46; 50]].
Proof. vm_compute. reflexivity. Qed.

Example unit_test_number_parsing2_1 : cleaned (tokenize [118; 97; 114; 32; 120; 32; 61; 32; 49; 50; 46; 97; 59]) = Ok [TKeyword KVar; TOther [120]; TOperation Equal; TNumber 12; TChar Dot; TOther [97]; TChar SemiColon].
Proof. vm_compute. reflexivity. Qed.

Example unit_tokens_spaces_1 : cleaned (tokenize [116; 32; 105; 110; 32; 101]) = Ok [TOther [116]; TKeyword KIn; TOther [101]].
Proof. vm_compute. reflexivity. Qed.

Example unit_division_by_id_1 : cleaned (tokenize [49; 48; 48; 47; 97; 98; 99]) = Ok [TNumber 100; TOperation Divide; TOther [97; 98; 99]].
Proof. vm_compute. reflexivity. Qed.

Example unit_weird_regex_1 : cleaned (tokenize [105; 102; 32; 40; 33; 47; 92; 47; 40; 99; 111; 110; 116; 97; 99; 116; 124; 108; 101; 103; 97; 108; 41; 92; 47; 47; 46; 116; 101; 115; 116; 40; 97; 41; 41; 32; 123; 125]) = Ok [TKeyword KIf; TChar OpenParenthese; TChar ExclamationMark; TRegex [92; 47; 40; 99; 111; 110; 116; 97; 99; 116; 124; 108; 101; 103; 97; 108; 41; 92; 47] false false; TChar Dot; TOther [116; 101; 115; 116]; TChar OpenParenthese; TOther [97]; TChar CloseParenthese; TChar CloseParenthese; TChar OpenCurlyBrace; TChar CloseCurlyBrace].
Proof. vm_compute. reflexivity. Qed.

Example unit_test_regexes_1 : cleaned (tokenize [47; 92; 47; 40; 99; 111; 110; 116; 97; 99; 116; 124; 108; 101; 103; 97; 108; 41; 92; 47; 47; 46; 116; 101; 115; 116]) = Ok [TRegex [92; 47; 40; 99; 111; 110; 116; 97; 99; 116; 124; 108; 101; 103; 97; 108; 41; 92; 47] false false; TChar Dot; TOther [116; 101; 115; 116]].
Proof. vm_compute. reflexivity. Qed.

Example unit_test_regexes_2 : cleaned (tokenize [47; 92; 42; 40; 99; 111; 110; 116; 97; 99; 116; 124; 108; 101; 103; 97; 108; 41; 47; 46; 116; 101; 115; 116]) = Ok [TRegex [92; 42; 40; 99; 111; 110; 116; 97; 99; 116; 124; 108; 101; 103; 97; 108; 41] false false; TChar Dot; TOther [116; 101; 115; 116]].
Proof. vm_compute. reflexivity. Qed.

Example unit_test_comments_1 : tokenize [47; 42; 40; 99; 111; 110; 116; 97; 99; 116; 124; 108; 101; 103; 97; 108; 41; 47; 46; 116; 101; 115; 116] = Ok [TComment [40; 99; 111; 110; 116; 97; 99; 116; 124; 108; 101; 103; 97; 108; 41; 47; 46; 116; 101; 115; 116]].
Proof. vm_compute. reflexivity. Qed.

Example unit_test_comments_2 : tokenize [47; 42; 40; 99; 111; 110; 116; 97; 99; 116; 124; 108; 101; 103; 97; 108; 41; 47; 46; 116; 101; 115; 116; 42; 47; 32; 97] = Ok [TComment [40; 99; 111; 110; 116; 97; 99; 116; 124; 108; 101; 103; 97; 108; 41; 47; 46; 116; 101; 115; 116]; TChar Space; TOther [97]].
Proof. vm_compute. reflexivity. Qed.

Example unit_test_unclosed_comment_at_eof_1 : tokenize [47; 42] = Ok [TComment []].
Proof. vm_compute. reflexivity. Qed.

Example unit_test_unclosed_comment_at_eof_2 : tokenize [97; 47; 42] = Ok [TOther [97]; TComment []].
Proof. vm_compute. reflexivity. Qed.

Example unit_test_unclosed_comment_at_eof_3 : tokenize [47; 42; 120] = Ok [TComment [120]].
Proof. vm_compute. reflexivity. Qed.

Example unit_test_unclosed_comment_at_eof_4 : tokenize [47; 42; 33] = Ok [TLicense []].
Proof. vm_compute. reflexivity. Qed.

Example unit_check_get_array_x : (let! ts := tokenize [118; 97; 114; 32; 120; 32; 61; 32; 91; 32; 32; 93; 59; 32; 118; 97; 114; 32; 121; 32; 61; 32; 91; 39; 104; 101; 108; 108; 111; 39; 44; 10; 32; 32; 32; 32; 49; 50; 93; 59; 32; 118; 97; 114; 32; 122; 32; 61; 32; 91; 93; 59; 32; 118; 97; 114; 32; 119; 32; 61; 32; 49; 50; 59] in Ok (option_map snd (get_array ts (S_ "x")))) = Ok (Some 9%nat).
Proof. vm_compute. reflexivity. Qed.

Example unit_check_get_array_y : (let! ts := tokenize [118; 97; 114; 32; 120; 32; 61; 32; 91; 32; 32; 93; 59; 32; 118; 97; 114; 32; 121; 32; 61; 32; 91; 39; 104; 101; 108; 108; 111; 39; 44; 10; 32; 32; 32; 32; 49; 50; 93; 59; 32; 118; 97; 114; 32; 122; 32; 61; 32; 91; 93; 59; 32; 118; 97; 114; 32; 119; 32; 61; 32; 49; 50; 59] in Ok (option_map snd (get_array ts (S_ "y")))) = Ok (Some 27%nat).
Proof. vm_compute. reflexivity. Qed.

Example unit_check_get_array_z : (let! ts := tokenize [118; 97; 114; 32; 120; 32; 61; 32; 91; 32; 32; 93; 59; 32; 118; 97; 114; 32; 121; 32; 61; 32; 91; 39; 104; 101; 108; 108; 111; 39; 44; 10; 32; 32; 32; 32; 49; 50; 93; 59; 32; 118; 97; 114; 32; 122; 32; 61; 32; 91; 93; 59; 32; 118; 97; 114; 32; 119; 32; 61; 32; 49; 50; 59] in Ok (option_map snd (get_array ts (S_ "z")))) = Ok (Some 37%nat).
Proof. vm_compute. reflexivity. Qed.

Example unit_check_get_array_w : (let! ts := tokenize [118; 97; 114; 32; 120; 32; 61; 32; 91; 32; 32; 93; 59; 32; 118; 97; 114; 32; 121; 32; 61; 32; 91; 39; 104; 101; 108; 108; 111; 39; 44; 10; 32; 32; 32; 32; 49; 50; 93; 59; 32; 118; 97; 114; 32; 122; 32; 61; 32; 91; 93; 59; 32; 118; 97; 114; 32; 119; 32; 61; 32; 49; 50; 59] in Ok (option_map snd (get_array ts (S_ "w")))) = Ok None.
Proof. vm_compute. reflexivity. Qed.

Example unit_check_get_array_upper : (let! ts := tokenize [118; 97; 114; 32; 120; 32; 61; 32; 91; 32; 32; 93; 59; 32; 118; 97; 114; 32; 121; 32; 61; 32; 91; 39; 104; 101; 108; 108; 111; 39; 44; 10; 32; 32; 32; 32; 49; 50; 93; 59; 32; 118; 97; 114; 32; 122; 32; 61; 32; 91; 93; 59; 32; 118; 97; 114; 32; 119; 32; 61; 32; 49; 50; 59] in Ok (option_map snd (get_array ts (S_ "W")))) = Ok None.
Proof. vm_compute. reflexivity. Qed.

(** The loop of the test check_get_variable_name_and_value_positions (utils.rs 492-525). *)
Fixpoint positions_loop (fuel : nat) (ts : list token) (pos : nat) : outcome (list (nat * option nat)) :=
  match fuel with
  | O => OutOfFuel
  | S n =>
      if Nat.ltb pos (length ts) then
        let! o := get_variable_name_and_value_positions ts pos in
        match o with
        | Some x => let! r := positions_loop n ts (S (fst x)) in Ok (x :: r)
        | None => positions_loop n ts (S pos)
        end
      else Ok []
  end.

Example unit_positions_1 : (let! ts := tokenize [118; 97; 114; 32; 120; 32; 61; 32; 49; 59; 118; 97; 114; 32; 121; 32; 32; 32; 61; 32; 32; 32; 34; 50; 34; 44; 119; 101; 61; 52; 59] in positions_loop 100 ts 0) = Ok [(2, Some 6); (10, Some 18); (20, Some 22)]%nat.
Proof. vm_compute. reflexivity. Qed.

Example unit_positions_2 : (let! ts := cleaned (tokenize [118; 97; 114; 32; 120; 32; 61; 32; 49; 59; 118; 97; 114; 32; 121; 32; 32; 32; 61; 32; 32; 32; 34; 50; 34; 44; 119; 101; 61; 52; 59]) in positions_loop 100 ts 0) = Ok [(1, Some 3); (6, Some 8); (10, Some 12)]%nat.
Proof. vm_compute. reflexivity. Qed.

Example unit_replace_tokens : shown (let! ts := cleaned (tokenize [10; 118; 97; 114; 32; 120; 32; 61; 32; 91; 39; 97; 39; 44; 32; 39; 98; 39; 44; 32; 110; 117; 108; 108; 44; 32; 39; 100; 39; 44; 32; 123; 39; 120; 39; 58; 32; 110; 117; 108; 108; 44; 32; 39; 101; 39; 58; 32; 110; 117; 108; 108; 44; 32; 39; 122; 39; 58; 32; 39; 119; 39; 125; 93; 59; 10; 118; 97; 114; 32; 110; 32; 61; 32; 110; 117; 108; 108; 59; 10]) in Ok (replace_tokens_with ts (fun t => if token_eqb t (TKeyword KNull) then Some (TOther (S_ "N")) else None))) = Ok [118; 97; 114; 32; 120; 61; 91; 39; 97; 39; 44; 39; 98; 39; 44; 78; 44; 39; 100; 39; 44; 123; 39; 120; 39; 58; 78; 44; 39; 101; 39; 58; 78; 44; 39; 122; 39; 58; 39; 119; 39; 125; 93; 59; 118; 97; 114; 32; 110; 61; 78; 59].
Proof. vm_compute. reflexivity. Qed.

Example doc_positions : (let! ts := tokenize [118; 97; 114; 32; 120; 32; 61; 32; 49; 59; 118; 97; 114; 32; 122; 59; 118; 97; 114; 32; 121; 32; 32; 32; 61; 32; 32; 32; 34; 50; 34; 59] in let! a := get_variable_name_and_value_positions ts 0 in let! b := get_variable_name_and_value_positions ts 8 in let! c := get_variable_name_and_value_positions ts 12 in Ok [a; b; c]) = Ok [Some (2, Some 6); Some (10, None); Some (14, Some 22)]%nat.
Proof. vm_compute. reflexivity. Qed.

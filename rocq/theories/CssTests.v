(** The unit tests of src/css/tests.rs, evaluated in the model.  Strings are given as
    character codes. *)
From Coq Require Import List NArith.
From Verif Require Import Base CssModel.
Import ListNotations.
Open Scope N_scope.

Example unit_check_minification_1 : css_minify (fun _ => false)
  [10; 47; 42; 42; 32; 66; 97; 103; 117; 101; 116; 116; 101; 33; 32; 42; 47; 10; 46; 98; 32; 62; 32; 112; 32; 43; 32; 100; 105; 118; 58; 104; 111; 118; 101; 114; 32; 123; 10; 32; 32; 32; 32; 98; 97; 99; 107; 103; 114; 111; 117; 110; 100; 58; 32; 35; 102; 102; 102; 59; 10; 125; 10; 10; 97; 91; 116; 97; 114; 103; 101; 116; 32; 61; 32; 34; 95; 98; 108; 97; 110; 107; 34; 93; 32; 123; 10; 32; 32; 32; 32; 47; 42; 32; 73; 32; 108; 105; 107; 101; 32; 119; 101; 105; 114; 100; 32; 116; 101; 115; 116; 115; 46; 32; 42; 47; 10; 32; 32; 32; 32; 98; 111; 114; 100; 101; 114; 58; 32; 49; 112; 120; 32; 115; 111; 108; 105; 100; 32; 121; 101; 108; 108; 111; 119; 32; 32; 32; 59; 10; 125; 10]
  = Ok
  [47; 42; 33; 32; 66; 97; 103; 117; 101; 116; 116; 101; 33; 32; 42; 47; 10; 46; 98; 62; 112; 43; 100; 105; 118; 58; 104; 111; 118; 101; 114; 123; 98; 97; 99; 107; 103; 114; 111; 117; 110; 100; 58; 35; 102; 102; 102; 59; 125; 97; 91; 116; 97; 114; 103; 101; 116; 61; 34; 95; 98; 108; 97; 110; 107; 34; 93; 123; 98; 111; 114; 100; 101; 114; 58; 49; 112; 120; 32; 115; 111; 108; 105; 100; 32; 121; 101; 108; 108; 111; 119; 59; 125].
Proof. vm_compute. reflexivity. Qed.

Example unit_check_minification2_1 : css_minify (fun _ => false)
  [10; 104; 50; 44; 32; 104; 51; 58; 110; 111; 116; 40; 46; 105; 109; 112; 108; 41; 58; 110; 111; 116; 40; 46; 109; 101; 116; 104; 111; 100; 41; 58; 110; 111; 116; 40; 46; 116; 121; 112; 101; 41; 32; 123; 10; 32; 32; 32; 32; 98; 97; 99; 107; 103; 114; 111; 117; 110; 100; 45; 99; 111; 108; 111; 114; 58; 32; 35; 48; 97; 48; 52; 50; 102; 32; 33; 105; 109; 112; 111; 114; 116; 97; 110; 116; 59; 10; 125; 10; 10; 58; 116; 97; 114; 103; 101; 116; 32; 123; 32; 98; 97; 99; 107; 103; 114; 111; 117; 110; 100; 58; 32; 35; 52; 57; 52; 97; 51; 100; 59; 32; 125; 10; 10; 46; 116; 97; 98; 108; 101; 45; 100; 105; 115; 112; 108; 97; 121; 32; 116; 114; 32; 116; 100; 58; 102; 105; 114; 115; 116; 45; 99; 104; 105; 108; 100; 32; 123; 10; 32; 32; 32; 32; 102; 108; 111; 97; 116; 58; 32; 114; 105; 103; 104; 116; 59; 10; 125; 10; 10; 47; 42; 32; 106; 117; 115; 116; 32; 115; 111; 109; 101; 10; 32; 42; 32; 108; 111; 110; 103; 10; 32; 42; 10; 32; 42; 32; 118; 101; 114; 121; 10; 32; 42; 32; 108; 111; 110; 103; 10; 32; 42; 32; 99; 111; 109; 109; 101; 110; 116; 32; 58; 41; 10; 32; 42; 47; 10; 64; 109; 101; 100; 105; 97; 32; 40; 109; 97; 120; 45; 119; 105; 100; 116; 104; 58; 32; 55; 48; 48; 112; 120; 41; 32; 123; 10; 32; 32; 32; 32; 46; 116; 104; 101; 109; 101; 45; 112; 105; 99; 107; 101; 114; 32; 123; 10; 32; 32; 32; 32; 32; 32; 32; 32; 108; 101; 102; 116; 58; 32; 49; 48; 112; 120; 59; 10; 32; 32; 32; 32; 32; 32; 32; 32; 116; 111; 112; 58; 32; 53; 52; 112; 120; 59; 10; 32; 32; 32; 32; 32; 32; 32; 32; 122; 45; 105; 110; 100; 101; 120; 58; 32; 49; 59; 10; 32; 32; 32; 32; 32; 32; 32; 32; 98; 97; 99; 107; 103; 114; 111; 117; 110; 100; 45; 99; 111; 108; 111; 114; 58; 32; 114; 103; 98; 97; 40; 48; 44; 32; 32; 48; 32; 32; 44; 32; 32; 48; 32; 32; 44; 32; 32; 48; 41; 59; 10; 32; 32; 32; 32; 32; 32; 32; 32; 102; 111; 110; 116; 58; 32; 49; 53; 112; 120; 32; 34; 83; 70; 77; 111; 110; 111; 45; 82; 101; 103; 117; 108; 97; 114; 34; 44; 32; 67; 111; 110; 115; 111; 108; 97; 115; 44; 32; 34; 76; 105; 98; 101; 114; 97; 116; 105; 111; 110; 32; 77; 111; 110; 111; 34; 44; 32; 77; 101; 110; 108; 111; 44; 32; 67; 111; 117; 114; 105; 101; 114; 44; 32; 109; 111; 110; 111; 115; 112; 97; 99; 101; 59; 10; 32; 32; 32; 32; 125; 10; 125]
  = Ok
  [104; 50; 44; 104; 51; 58; 110; 111; 116; 40; 46; 105; 109; 112; 108; 41; 58; 110; 111; 116; 40; 46; 109; 101; 116; 104; 111; 100; 41; 58; 110; 111; 116; 40; 46; 116; 121; 112; 101; 41; 123; 98; 97; 99; 107; 103; 114; 111; 117; 110; 100; 45; 99; 111; 108; 111; 114; 58; 35; 48; 97; 48; 52; 50; 102; 32; 33; 105; 109; 112; 111; 114; 116; 97; 110; 116; 59; 125; 58; 116; 97; 114; 103; 101; 116; 123; 98; 97; 99; 107; 103; 114; 111; 117; 110; 100; 58; 35; 52; 57; 52; 97; 51; 100; 59; 125; 46; 116; 97; 98; 108; 101; 45; 100; 105; 115; 112; 108; 97; 121; 32; 116; 114; 32; 116; 100; 58; 102; 105; 114; 115; 116; 45; 99; 104; 105; 108; 100; 123; 102; 108; 111; 97; 116; 58; 114; 105; 103; 104; 116; 59; 125; 64; 109; 101; 100; 105; 97; 32; 40; 109; 97; 120; 45; 119; 105; 100; 116; 104; 58; 55; 48; 48; 112; 120; 41; 123; 46; 116; 104; 101; 109; 101; 45; 112; 105; 99; 107; 101; 114; 123; 108; 101; 102; 116; 58; 49; 48; 112; 120; 59; 116; 111; 112; 58; 53; 52; 112; 120; 59; 122; 45; 105; 110; 100; 101; 120; 58; 49; 59; 98; 97; 99; 107; 103; 114; 111; 117; 110; 100; 45; 99; 111; 108; 111; 114; 58; 114; 103; 98; 97; 40; 48; 44; 48; 44; 48; 44; 48; 41; 59; 102; 111; 110; 116; 58; 49; 53; 112; 120; 32; 34; 83; 70; 77; 111; 110; 111; 45; 82; 101; 103; 117; 108; 97; 114; 34; 44; 67; 111; 110; 115; 111; 108; 97; 115; 44; 34; 76; 105; 98; 101; 114; 97; 116; 105; 111; 110; 32; 77; 111; 110; 111; 34; 44; 77; 101; 110; 108; 111; 44; 67; 111; 117; 114; 105; 101; 114; 44; 109; 111; 110; 111; 115; 112; 97; 99; 101; 59; 125; 125].
Proof. vm_compute. reflexivity. Qed.

Example unit_check_calc_1 : css_minify (fun _ => false)
  [46; 102; 111; 111; 32; 123; 32; 119; 105; 100; 116; 104; 58; 32; 99; 97; 108; 99; 40; 49; 48; 48; 37; 32; 45; 32; 51; 52; 112; 120; 41; 59; 32; 125]
  = Ok
  [46; 102; 111; 111; 123; 119; 105; 100; 116; 104; 58; 99; 97; 108; 99; 40; 49; 48; 48; 37; 32; 45; 32; 51; 52; 112; 120; 41; 59; 125].
Proof. vm_compute. reflexivity. Qed.

Example unit_check_container_1 : css_minify (fun _ => false)
  [64; 99; 111; 110; 116; 97; 105; 110; 101; 114; 32; 114; 117; 115; 116; 100; 111; 99; 32; 40; 109; 105; 110; 45; 119; 105; 100; 116; 104; 58; 32; 49; 50; 53; 48; 112; 120; 41; 32; 123; 32; 46; 102; 111; 111; 32; 123; 32; 119; 105; 100; 116; 104; 58; 32; 49; 48; 48; 112; 120; 59; 32; 125; 32; 125]
  = Ok
  [64; 99; 111; 110; 116; 97; 105; 110; 101; 114; 32; 114; 117; 115; 116; 100; 111; 99; 32; 40; 109; 105; 110; 45; 119; 105; 100; 116; 104; 58; 49; 50; 53; 48; 112; 120; 41; 123; 46; 102; 111; 111; 123; 119; 105; 100; 116; 104; 58; 49; 48; 48; 112; 120; 59; 125; 125].
Proof. vm_compute. reflexivity. Qed.

Example unit_check_spaces_1 : css_minify (fun _ => false)
  [46; 108; 105; 110; 101; 45; 110; 117; 109; 98; 101; 114; 115; 32; 46; 108; 105; 110; 101; 45; 104; 105; 103; 104; 108; 105; 103; 104; 116; 101; 100; 32; 123; 32; 99; 111; 108; 111; 114; 58; 32; 35; 48; 97; 48; 52; 50; 102; 32; 33; 105; 109; 112; 111; 114; 116; 97; 110; 116; 59; 32; 125]
  = Ok
  [46; 108; 105; 110; 101; 45; 110; 117; 109; 98; 101; 114; 115; 32; 46; 108; 105; 110; 101; 45; 104; 105; 103; 104; 108; 105; 103; 104; 116; 101; 100; 123; 99; 111; 108; 111; 114; 58; 35; 48; 97; 48; 52; 50; 102; 32; 33; 105; 109; 112; 111; 114; 116; 97; 110; 116; 59; 125].
Proof. vm_compute. reflexivity. Qed.

Example unit_check_space_after_paren_1 : css_minify (fun _ => false)
  [46; 100; 111; 99; 98; 108; 111; 99; 107; 58; 110; 111; 116; 40; 46; 116; 121; 112; 101; 45; 100; 101; 99; 108; 41; 32; 97; 58; 110; 111; 116; 40; 46; 115; 114; 99; 108; 105; 110; 107; 41; 32; 123; 125]
  = Ok
  [46; 100; 111; 99; 98; 108; 111; 99; 107; 58; 110; 111; 116; 40; 46; 116; 121; 112; 101; 45; 100; 101; 99; 108; 41; 32; 97; 58; 110; 111; 116; 40; 46; 115; 114; 99; 108; 105; 110; 107; 41; 123; 125].
Proof. vm_compute. reflexivity. Qed.

Example unit_check_space_after_and_1 : css_minify (fun _ => false)
  [64; 109; 101; 100; 105; 97; 32; 111; 110; 108; 121; 32; 115; 99; 114; 101; 101; 110; 32; 97; 110; 100; 32; 40; 109; 97; 120; 45; 119; 105; 100; 116; 104; 32; 58; 32; 54; 48; 48; 112; 120; 41; 32; 123; 125]
  = Ok
  [64; 109; 101; 100; 105; 97; 32; 111; 110; 108; 121; 32; 115; 99; 114; 101; 101; 110; 32; 97; 110; 100; 32; 40; 109; 97; 120; 45; 119; 105; 100; 116; 104; 58; 54; 48; 48; 112; 120; 41; 123; 125].
Proof. vm_compute. reflexivity. Qed.

Example unit_check_space_after_or_not_1 : css_minify (fun _ => false)
  [64; 115; 117; 112; 112; 111; 114; 116; 115; 32; 110; 111; 116; 32; 40; 40; 116; 101; 120; 116; 45; 97; 108; 105; 103; 110; 45; 108; 97; 115; 116; 58; 32; 106; 117; 115; 116; 105; 102; 121; 41; 32; 111; 114; 32; 40; 45; 109; 111; 122; 45; 116; 101; 120; 116; 45; 97; 108; 105; 103; 110; 45; 108; 97; 115; 116; 58; 32; 106; 117; 115; 116; 105; 102; 121; 41; 41; 32; 123; 125]
  = Ok
  [64; 115; 117; 112; 112; 111; 114; 116; 115; 32; 110; 111; 116; 32; 40; 40; 116; 101; 120; 116; 45; 97; 108; 105; 103; 110; 45; 108; 97; 115; 116; 58; 106; 117; 115; 116; 105; 102; 121; 41; 32; 111; 114; 32; 40; 45; 109; 111; 122; 45; 116; 101; 120; 116; 45; 97; 108; 105; 103; 110; 45; 108; 97; 115; 116; 58; 106; 117; 115; 116; 105; 102; 121; 41; 41; 123; 125].
Proof. vm_compute. reflexivity. Qed.

Example unit_check_space_after_brackets_1 : css_minify (fun _ => false)
  [35; 109; 97; 105; 110; 91; 100; 97; 116; 97; 45; 98; 101; 104; 97; 118; 105; 111; 114; 32; 61; 32; 34; 49; 34; 93; 32; 123; 125]
  = Ok
  [35; 109; 97; 105; 110; 91; 100; 97; 116; 97; 45; 98; 101; 104; 97; 118; 105; 111; 114; 61; 34; 49; 34; 93; 123; 125].
Proof. vm_compute. reflexivity. Qed.

Example unit_check_space_after_brackets_2 : css_minify (fun _ => false)
  [35; 109; 97; 105; 110; 91; 100; 97; 116; 97; 45; 98; 101; 104; 97; 118; 105; 111; 114; 32; 61; 32; 34; 49; 34; 93; 32; 46; 97; 99; 108; 97; 115; 115]
  = Ok
  [35; 109; 97; 105; 110; 91; 100; 97; 116; 97; 45; 98; 101; 104; 97; 118; 105; 111; 114; 61; 34; 49; 34; 93; 32; 46; 97; 99; 108; 97; 115; 115].
Proof. vm_compute. reflexivity. Qed.

Example unit_check_space_after_brackets_3 : css_minify (fun _ => false)
  [35; 109; 97; 105; 110; 91; 100; 97; 116; 97; 45; 98; 101; 104; 97; 118; 105; 111; 114; 32; 61; 32; 34; 49; 34; 93; 32; 117; 108; 46; 97; 99; 108; 97; 115; 115]
  = Ok
  [35; 109; 97; 105; 110; 91; 100; 97; 116; 97; 45; 98; 101; 104; 97; 118; 105; 111; 114; 61; 34; 49; 34; 93; 32; 117; 108; 46; 97; 99; 108; 97; 115; 115].
Proof. vm_compute. reflexivity. Qed.

Example unit_check_whitespaces_in_calc_1 : css_minify (fun _ => false)
  [46; 102; 111; 111; 32; 123; 32; 119; 105; 100; 116; 104; 58; 32; 99; 97; 108; 99; 40; 49; 51; 48; 112; 120; 32; 32; 32; 32; 32; 43; 32; 49; 48; 37; 41; 59; 32; 125]
  = Ok
  [46; 102; 111; 111; 123; 119; 105; 100; 116; 104; 58; 99; 97; 108; 99; 40; 49; 51; 48; 112; 120; 32; 43; 32; 49; 48; 37; 41; 59; 125].
Proof. vm_compute. reflexivity. Qed.

Example unit_check_whitespaces_in_calc_2 : css_minify (fun _ => false)
  [46; 102; 111; 111; 32; 123; 32; 119; 105; 100; 116; 104; 58; 32; 99; 97; 108; 99; 40; 49; 51; 48; 112; 120; 32; 43; 32; 40; 52; 53; 37; 32; 45; 32; 49; 48; 37; 32; 43; 32; 32; 32; 40; 49; 50; 32; 32; 32; 42; 32; 32; 32; 50; 112; 120; 41; 41; 41; 59; 32; 125]
  = Ok
  [46; 102; 111; 111; 123; 119; 105; 100; 116; 104; 58; 99; 97; 108; 99; 40; 49; 51; 48; 112; 120; 32; 43; 32; 40; 52; 53; 37; 32; 45; 32; 49; 48; 37; 32; 43; 32; 40; 49; 50; 32; 42; 32; 50; 112; 120; 41; 41; 41; 59; 125].
Proof. vm_compute. reflexivity. Qed.

Example unit_check_weird_comments_1 : css_minify (fun _ => false)
  [46; 116; 101; 115; 116; 49; 32; 123; 10; 32; 32; 32; 32; 102; 111; 110; 116; 45; 119; 101; 105; 103; 104; 116; 58; 32; 51; 48; 101; 109; 59; 10; 125; 47; 42; 42; 47; 10; 46; 116; 101; 115; 116; 50; 32; 123; 10; 32; 32; 32; 32; 102; 111; 110; 116; 45; 119; 101; 105; 103; 104; 116; 58; 32; 51; 48; 101; 109; 59; 10; 125; 47; 42; 42; 47; 10; 46; 116; 101; 115; 116; 51; 32; 123; 10; 32; 32; 32; 32; 102; 111; 110; 116; 45; 119; 101; 105; 103; 104; 116; 58; 32; 51; 48; 101; 109; 59; 10; 125; 47; 42; 42; 47]
  = Ok
  [46; 116; 101; 115; 116; 49; 123; 102; 111; 110; 116; 45; 119; 101; 105; 103; 104; 116; 58; 51; 48; 101; 109; 59; 125; 46; 116; 101; 115; 116; 50; 123; 102; 111; 110; 116; 45; 119; 101; 105; 103; 104; 116; 58; 51; 48; 101; 109; 59; 125; 46; 116; 101; 115; 116; 51; 123; 102; 111; 110; 116; 45; 119; 101; 105; 103; 104; 116; 58; 51; 48; 101; 109; 59; 125].
Proof. vm_compute. reflexivity. Qed.

Example unit_check_slash_slash_1 : css_minify (fun _ => false)
  [98; 111; 100; 121; 32; 123; 10; 32; 32; 32; 32; 98; 97; 99; 107; 103; 114; 111; 117; 110; 100; 45; 105; 109; 97; 103; 101; 58; 32; 117; 114; 108; 40; 100; 97; 116; 97; 58; 105; 109; 97; 103; 101; 47; 119; 101; 98; 112; 59; 98; 97; 115; 101; 54; 52; 44; 99; 47; 47; 83; 52; 75; 80; 47; 47; 90; 90; 47; 49; 57; 85; 106; 47; 85; 65; 61; 61; 41; 59; 10; 125]
  = Ok
  [98; 111; 100; 121; 123; 98; 97; 99; 107; 103; 114; 111; 117; 110; 100; 45; 105; 109; 97; 103; 101; 58; 117; 114; 108; 40; 100; 97; 116; 97; 58; 105; 109; 97; 103; 101; 47; 119; 101; 98; 112; 59; 98; 97; 115; 101; 54; 52; 44; 99; 47; 47; 83; 52; 75; 80; 47; 47; 90; 90; 47; 49; 57; 85; 106; 47; 85; 65; 61; 61; 41; 59; 125].
Proof. vm_compute. reflexivity. Qed.

Example unit_check_escaped_characters_1 : css_minify (fun _ => false)
  [46; 98; 101; 102; 111; 114; 101; 92; 58; 112; 114; 111; 115; 101; 45; 104; 101; 97; 100; 105; 110; 103; 115; 92; 58; 99; 111; 110; 116; 101; 110; 116; 45; 92; 91; 92; 39; 92; 35; 92; 39; 92; 93; 32; 58; 105; 115; 40; 58; 119; 104; 101; 114; 101; 40; 104; 49; 44; 104; 50; 44; 104; 51; 44; 104; 52; 44; 104; 53; 44; 104; 54; 44; 116; 104; 41; 58; 110; 111; 116; 40; 58; 119; 104; 101; 114; 101; 40; 91; 99; 108; 97; 115; 115; 126; 61; 34; 110; 111; 116; 45; 112; 114; 111; 115; 101; 34; 93; 32; 42; 41; 41; 41; 58; 58; 98; 101; 102; 111; 114; 101; 123; 10; 32; 32; 45; 45; 101; 110; 45; 99; 111; 110; 116; 101; 110; 116; 58; 32; 39; 35; 39; 59; 10; 32; 32; 99; 111; 110; 116; 101; 110; 116; 58; 32; 118; 97; 114; 40; 45; 45; 101; 110; 45; 99; 111; 110; 116; 101; 110; 116; 41; 59; 10; 125]
  = Ok
  [46; 98; 101; 102; 111; 114; 101; 92; 58; 112; 114; 111; 115; 101; 45; 104; 101; 97; 100; 105; 110; 103; 115; 92; 58; 99; 111; 110; 116; 101; 110; 116; 45; 92; 91; 92; 39; 92; 35; 92; 39; 92; 93; 32; 58; 105; 115; 40; 58; 119; 104; 101; 114; 101; 40; 104; 49; 44; 104; 50; 44; 104; 51; 44; 104; 52; 44; 104; 53; 44; 104; 54; 44; 116; 104; 41; 58; 110; 111; 116; 40; 58; 119; 104; 101; 114; 101; 40; 91; 99; 108; 97; 115; 115; 126; 61; 34; 110; 111; 116; 45; 112; 114; 111; 115; 101; 34; 93; 32; 42; 41; 41; 41; 58; 58; 98; 101; 102; 111; 114; 101; 123; 45; 45; 101; 110; 45; 99; 111; 110; 116; 101; 110; 116; 58; 39; 35; 39; 59; 99; 111; 110; 116; 101; 110; 116; 58; 118; 97; 114; 40; 45; 45; 101; 110; 45; 99; 111; 110; 116; 101; 110; 116; 41; 59; 125].
Proof. vm_compute. reflexivity. Qed.

Example unit_issue_80_1 : css_minify (fun _ => false)
  [64; 105; 109; 112; 111; 114; 116; 32; 39; 105; 39; 59; 116; 123; 120; 58; 32; 35; 102; 102; 102; 59; 125]
  = Ok
  [64; 105; 109; 112; 111; 114; 116; 32; 39; 105; 39; 59; 116; 123; 120; 58; 35; 102; 102; 102; 59; 125].
Proof. vm_compute. reflexivity. Qed.

Example unit_check_attribute_1 : css_minify (fun _ => false)
  [120; 32; 91; 121; 93; 32; 123; 125]
  = Ok
  [120; 32; 91; 121; 93; 123; 125].
Proof. vm_compute. reflexivity. Qed.

Example unit_check_weird_input_1 : css_minify (fun _ => false)
  [46]
  = Ok
  [46].
Proof. vm_compute. reflexivity. Qed.

Example unit_check_weird_input_2 : css_minify (fun _ => false)
  [47; 47; 42; 42; 47; 42]
  = Ok
  [47; 32; 42].
Proof. vm_compute. reflexivity. Qed.

Example unit_check_weird_input_3 : css_minify (fun _ => false)
  [49; 47; 42; 42; 47; 72]
  = Ok
  [49; 32; 72].
Proof. vm_compute. reflexivity. Qed.

Example unit_check_weird_input_4 : css_minify (fun _ => false)
  [42; 47; 42; 42; 47; 61]
  = Ok
  [42; 32; 61].
Proof. vm_compute. reflexivity. Qed.

Example unit_check_weird_input_5 : css_minify (fun _ => false)
  [92; 45; 49]
  = Ok
  [92; 45; 49].
Proof. vm_compute. reflexivity. Qed.

Example unit_check_space_after_star_1 : css_minify (fun _ => false)
  [42; 32; 46; 111; 114; 105; 103; 105; 110; 97; 108]
  = Ok
  [42; 32; 46; 111; 114; 105; 103; 105; 110; 97; 108].
Proof. vm_compute. reflexivity. Qed.

Example unit_check_space_after_star_2 : css_minify (fun _ => false)
  [46; 97; 32; 42; 32; 46; 111; 114; 105; 103; 105; 110; 97; 108]
  = Ok
  [46; 97; 32; 42; 32; 46; 111; 114; 105; 103; 105; 110; 97; 108].
Proof. vm_compute. reflexivity. Qed.


(** Model of src/js/utils.rs, of the printers of src/js/token.rs, and of js::minify. *)
From Coq Require Import String List NArith ZArith Bool.
From Verif Require Import Base JsModel.
Import ListNotations.
Open Scope N_scope.

(** ** Printing (tokens_writer!, token.rs 1023-1047) *)

(** The blank written before token [t] when [prev] precedes it (1027-1035). *)
Definition blank_before (prev : option token) (t : token) : bool :=
  match prev with
  | Some p =>
      requires_before t && negb (is_keyword p) && negb (is_other p)
      && negb (is_reserved_char p) && negb (is_string p)
  | None => false
  end.

(** The blank written after token [t] when [next] follows it (1037-1044). *)
Definition blank_after (t : token) (next : option token) : bool :=
  match t, next with
  | TKeyword _, Some n | TOther _, Some n => get_required n
  | _, _ => false
  end.

Definition opt_blank (b : bool) : list str := if b then [S_ " "] else [].

(** The [write_str] calls of the printer, on a formatter that does not fail. *)
Fixpoint print_chunks (prev : option token) (ts : list token) : list str :=
  match ts with
  | [] => []
  | t :: r =>
      opt_blank (blank_before prev t) ++ token_chunks t
      ++ opt_blank (blank_after t (hd_error r)) ++ print_chunks (Some t) r
  end.

(** Display for Tokens (token.rs 1056-1061), [to_string]. *)
Definition tokens_show (ts : list token) : str := concat (print_chunks None ts).

(** [write_all] of one chunk; an empty chunk does not reach the writer.  Result: what the
    writer accepted, whether it succeeded, the writer afterwards. *)
Definition write1 (ch : str) (w : writer) : list N * bool * writer :=
  match ch with
  | [] => ([], true, w)
  | _ =>
      match w with
      | [] => (encode ch, true, [])
      | None :: w' => (encode ch, true, w')
      | Some k :: w' => (firstn k (encode ch), false, w')
      end
  end.

(** Several chunks, stopping at the first failure. *)
Fixpoint write_all (chs : list str) (w : writer) : list N * bool * writer :=
  match chs with
  | [] => ([], true, w)
  | ch :: r =>
      let '(o, b, w1) := write1 ch w in
      if b then let '(o2, b2, w2) := write_all r w1 in (o ++ o2, b2, w2)
      else (o, false, w1)
  end.

(** Display for Token (token.rs 386-415) on a writer.  In the regex case a failure of the
    body is returned only after the flags have been written: [let x = write!(..)]. *)
Definition write_token (t : token) (w : writer) : list N * bool * writer :=
  match t with
  | TRegex r g i =>
      let '(o1, b1, w1) := write_all [S_ "/"; r; S_ "/"] w in
      let '(o2, b2, w2) := if g then write1 (S_ "g") w1 else ([], true, w1) in
      if b2 then
        let '(o3, b3, w3) := if i then write1 (S_ "i") w2 else ([], true, w2) in
        (o1 ++ o2 ++ o3, b3 && b1, w3)
      else (o1 ++ o2, false, w2)
  | _ => write_all (token_chunks t) w
  end.

(** Tokens::write (token.rs 1049-1054): what the writer holds at the end, and success. *)
Fixpoint write_tokens (prev : option token) (ts : list token) (w : writer) : list N * bool :=
  match ts with
  | [] => ([], true)
  | t :: r =>
      let '(o1, b1, w1) := write_all (opt_blank (blank_before prev t)) w in
      if b1 then
        let '(o2, b2, w2) := write_token t w1 in
        if b2 then
          let '(o3, b3, w3) := write_all (opt_blank (blank_after t (hd_error r))) w2 in
          if b3 then
            let (o4, b4) := write_tokens (Some t) r w3 in (o1 ++ o2 ++ o3 ++ o4, b4)
          else (o1 ++ o2 ++ o3, false)
        else (o1 ++ o2, false)
      else (o1, false)
  end.

(** ** Cleaning *)

(** [t.is_comment() || t.is_white_character()] *)
Definition is_blank (t : token) : bool := is_comment t || is_white_character t.

(** get_next (utils.rs 243-252): the next token that is not blank, and the rest. *)
Fixpoint get_next (it : list token) : option (token * list token) :=
  match it with
  | [] => None
  | t :: r => if is_blank t then get_next r else Some (t, r)
  end.

(** clean_tokens (utils.rs 268-298); [v] in reverse order. *)
Fixpoint clean_loop (fuel : nat) (it : list token) (v : list token) : outcome (list token) :=
  match fuel with
  | O => OutOfFuel
  | S n =>
      match get_next it with
      | None => Ok (rev v)
      | Some (t, r) =>
          if is_white_character t then clean_loop n r v
          else if eq_char SemiColon t then
            match v with [] => clean_loop n r v | _ => clean_loop n r (t :: v) end
          else clean_loop n r (t :: v)
      end
  end.

Definition clean_tokens (ts : list token) : outcome (list token) :=
  clean_loop (S (length ts)) ts [].

(** clean_token (utils.rs 302-313). *)
Definition clean_token (t : token) (next : option token) : bool :=
  negb (is_comment t)
  && match get_char t with
     | Some x =>
         negb (rchar_white x)
         && (negb (rchar_eqb x SemiColon)
             || negb (match next with
                      | Some n => token_eqb n (TChar CloseCurlyBrace)
                      | None => false
                      end))
     | None => true
     end.

(** get_next_except (utils.rs 315-327). *)
Fixpoint get_next_except (f : token -> bool) (it : list token) : option (token * list token) :=
  match it with
  | [] => None
  | t :: r => if is_blank t && f t then get_next_except f r else Some (t, r)
  end.

(** clean_tokens_except (utils.rs 348-382); [v] in reverse order. *)
Fixpoint clean_except_loop (fuel : nat) (f : token -> bool) (it : list token) (v : list token)
  : outcome (list token) :=
  match fuel with
  | O => OutOfFuel
  | S n =>
      match get_next_except f it with
      | None => Ok (rev v)
      | Some (t, r) =>
          if is_white_character t then
            if f t then clean_except_loop n f r v else clean_except_loop n f r (t :: v)
          else if eq_char SemiColon t then
            match v with
            | [] => clean_except_loop n f r (if f t then v else t :: v)
            | _ =>
                match get_next_except f r with
                | Some (nx, r') =>
                    clean_except_loop n f r'
                      (nx :: (if negb (token_eqb nx (TChar CloseCurlyBrace)) || negb (f t)
                              then t :: v else v))
                | None => clean_except_loop n f [] (if f t then v else t :: v)
                end
            end
          else clean_except_loop n f r (t :: v)
      end
  end.

Definition clean_tokens_except (ts : list token) (f : token -> bool) : outcome (list token) :=
  clean_except_loop (S (length ts)) f ts [].

(** clean_token_except (utils.rs 386-397). *)
Definition clean_token_except (t : token) (next : option token) (f : token -> bool) : bool :=
  if negb (clean_token t next) then negb (f t) else true.

(** replace_token_with, replace_tokens_with (utils.rs 116-140). *)
Definition replace_token_with (t : token) (callback : token -> option token) : token :=
  match callback t with Some u => u | None => t end.

Definition replace_tokens_with (ts : list token) (callback : token -> option token) : list token :=
  map (fun t => replace_token_with t callback) ts.

(** ** js::minify (tools.rs 187-192), Minified (tools.rs 194-206) *)
Definition js_minify_tokens (s : str) : outcome (list token) :=
  let! ts := tokenize s in clean_tokens ts.

Definition js_minify (s : str) : outcome str :=
  let! ts := js_minify_tokens s in Ok (tokens_show ts).

Definition js_write (s : str) (w : writer) : outcome (list N * bool) :=
  let! ts := js_minify_tokens s in Ok (write_tokens None ts w).

(** ** VariableNameGenerator (utils.rs 6-78)

    The chain of generators from the head down: the letters, and the prefix of the head
    (the inner ones have none).  [letter] is an ASCII character. *)
Record namegen := { letters : list N; prepend : option str }.

(** new (utils.rs 13-27). *)
Fixpoint new_letters (nb_letter : nat) : list N :=
  match nb_letter with
  | S (S n as m) => 0x61 :: new_letters m
  | _ => [0x61]
  end.

Definition namegen_new (prepend : option str) (nb_letter : nat) : namegen :=
  {| letters := new_letters nb_letter; prepend := prepend |}.

(** incr_letters (utils.rs 59-77). *)
Fixpoint incr_letters (l : list N) : list N :=
  match l with
  | [] => [0x61]   (* [self.lower] is None: a new generator *)
  | c :: r =>
      if c =? 0x7A then 0x41 :: r
      else if c =? 0x5A then 0x30 :: r
      else if c =? 0x39 then 0x61 :: incr_letters r
      else (c + 1) :: r
  end.

(** next (utils.rs 29-31). *)
Definition namegen_next (g : namegen) : namegen :=
  {| letters := incr_letters (letters g); prepend := prepend g |}.

(** to_string (utils.rs 34-45). *)
Definition namegen_show (g : namegen) : str :=
  (match prepend g with Some s => s | None => [] end) ++ letters g.

(** len (utils.rs 48-57). *)
Definition namegen_len (g : namegen) : nat :=
  ((match prepend g with Some s => blen s | None => 0 end) + length (letters g))%nat.

(** ** get_variable_name_and_value_positions (utils.rs 172-241) *)

(** [tokens[i]]: an index out of bounds panics. *)
Definition index {A} (v : list A) (i : nat) : outcome A :=
  match nth_error v i with Some t => Ok t | None => Panic end.

(** The backward loop (185-197): [None] for [return None], [Some tt] otherwise.  [pos]
    counts down. *)
Fixpoint back_loop (tokens : list token) (pos : nat) : outcome bool :=
  match pos with
  | O => Ok true
  | S p =>
      let! t := index tokens pos in
      if is_blank t then back_loop tokens p
      else Ok (token_eqb t (TChar Comma) || token_eqb t (TKeyword KLet)
               || token_eqb t (TKeyword KVar))
  end.

(** The value loop (207-221). *)
Fixpoint value_loop (fuel : nat) (tokens : list token) (tmp2 : nat) : outcome (option nat) :=
  match fuel with
  | O => OutOfFuel
  | S n =>
      if Nat.ltb tmp2 (length tokens) then
        let! t := index tokens tmp2 in
        if is_string t || is_other t || is_regex t || is_number t || is_floating_number t
        then Ok (Some tmp2)
        else if negb (is_comment t) && negb (is_white_character t) then Ok None
        else value_loop n tokens (S tmp2)
      else Ok None
  end.

(** The middle loop (204-234).  Result: [Some r] for [return Some((tmp, r))], [None] to go
    on with the next [tmp]. *)
Fixpoint name_loop (fuel : nat) (tokens : list token) (tmp2 : nat) : outcome (option (option nat)) :=
  match fuel with
  | O => OutOfFuel
  | S n =>
      if Nat.ltb tmp2 (length tokens) then
        let! t := index tokens tmp2 in
        if token_eqb t (TOperation Equal) then
          let! o := value_loop (S (length tokens)) tokens (S tmp2) in
          match o with
          | Some v => Ok (Some (Some v))
          | None => Ok None
          end
        else if eq_char Comma t || eq_char SemiColon t then Ok (Some None)
        else if negb (is_comment t || (is_white_character t && negb (eq_char Backline t)))
        then Ok None
        else name_loop n tokens (S tmp2)
      else Ok None
  end.

(** The outer loop (201-239). *)
Fixpoint var_loop (fuel : nat) (tokens : list token) (tmp : nat)
  : outcome (option (nat * option nat)) :=
  match fuel with
  | O => OutOfFuel
  | S n =>
      if Nat.ltb tmp (length tokens) then
        let! t := index tokens tmp in
        if is_other t then
          let! o := name_loop (S (length tokens)) tokens (S tmp) in
          match o with
          | Some r => Ok (Some (tmp, r))
          | None => var_loop n tokens (S tmp)
          end
        else var_loop n tokens (S tmp)
      else Ok None
  end.

Definition get_variable_name_and_value_positions (tokens : list token) (pos : nat)
  : outcome (option (nat * option nat)) :=
  if Nat.leb (length tokens) pos then Ok None
  else
    let! t := index tokens pos in
    let run tmp := var_loop (S (length tokens)) tokens tmp in
    match t with
    | TKeyword KLet | TKeyword KVar => run (S pos)
    | TOther _ =>
        match pos with
        | S p => let! b := back_loop tokens p in if b then run pos else Ok None
        | O => Ok None
        end
    | _ => Ok None
    end.

(** ** get_array (utils.rs 399-462) *)
Inductive array_state := Idle | LookingForVar | LookingForEqual | LookingForStart | GettingValues.

Fixpoint array_loop (array_name : str) (st : array_state) (pos : nat) (ret : list nat)
  (ts : list token) : option (list nat * nat) :=
  match ts with
  | [] => None
  | t :: r =>
      match st with
      | LookingForVar =>
          match t with
          | TOther s =>
              array_loop array_name (if str_eqb s array_name then LookingForEqual else Idle)
                (S pos) ret r
          | _ => array_loop array_name (if is_blank t then LookingForVar else Idle) (S pos) ret r
          end
      | LookingForEqual =>
          match t with
          | TOperation Equal => array_loop array_name LookingForStart (S pos) ret r
          | _ => array_loop array_name (if is_blank t then LookingForEqual else Idle) (S pos) ret r
          end
      | LookingForStart =>
          match t with
          | TChar OpenBracket => array_loop array_name GettingValues (S pos) ret r
          | _ => array_loop array_name (if is_blank t then LookingForStart else Idle) (S pos) ret r
          end
      | GettingValues =>
          match t with
          | TChar CloseBracket => Some (ret, pos)
          | _ => array_loop array_name GettingValues (S pos)
                   (if is_blank t then ret else ret ++ [pos]) r
          end
      | Idle =>
          match t with
          | TKeyword KLet | TKeyword KVar => array_loop array_name LookingForVar (S pos) ret r
          | _ => array_loop array_name Idle (S pos) ret r
          end
      end
  end.

Definition get_array (tokens : list token) (array_name : str) : option (list nat * nat) :=
  array_loop array_name Idle 0 [] tokens.

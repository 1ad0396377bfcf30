(** Model of the command line tool: src/cli.rs and src/main.rs.

    Paths are byte strings as on Unix; the functions of std::path the tool calls are modelled
    on them.  The file system is a tree without links: a location is the list of names from the
    root.  What the operating system may refuse or cut short is a parameter, so the theorems
    hold whatever it does.  Argument parsing (the clap crate) is not modelled: [cli_run] starts
    from the parsed options. *)
From Coq Require Import String List NArith Bool Arith.
From Verif Require Import Base Utf8 JsonModel.
From Verif Require CssModel JsUtilModel.
Import ListNotations.
Open Scope N_scope.
Open Scope list_scope.

Definition slash : N := 47.
Definition dot : N := 46.

(** ** std::path on Unix *)

(** The text between slashes. *)
Fixpoint split_slash (p : str) : list str :=
  match p with
  | [] => [[]]
  | c :: r =>
      if c =? slash then [] :: split_slash r
      else match split_slash r with
           | s :: l => (c :: s) :: l
           | [] => [[c]]
           end
  end.

Definition is_absolute (p : str) : bool :=
  match p with c :: _ => c =? slash | [] => false end.

(** Components::next_back skips trailing separators and [.] components; on the reversed text. *)
Fixpoint skip_trail (r : str) : str :=
  match r with
  | [] => []
  | c :: r' =>
      if c =? slash then skip_trail r'
      else if c =? dot then
        match r' with
        | [] => []
        | d :: _ => if d =? slash then skip_trail r' else r
        end
      else r
  end.

Fixpoint take_name (r : str) : str * str :=
  match r with
  | [] => ([], [])
  | c :: r' => if c =? slash then ([], r)
               else let (a, b) := take_name r' in (c :: a, b)
  end.

(** Path::file_name, with the text before it. *)
Definition split_path (p : str) : option (str * str) :=
  let (n, pre) := take_name (skip_trail (rev p)) in
  match n with
  | [] => None
  | _ => if str_eqb n [dot; dot] then None else Some (rev pre, rev n)
  end.

(** [rsplitn(2, '.')] of std's rsplit_file_at_dot, on the reversed name. *)
Fixpoint rsplit_dot (r : str) : option (str * str) :=
  match r with
  | [] => None
  | c :: r' => if c =? dot then Some (r', [])
               else match rsplit_dot r' with
                    | Some (b, a) => Some (b, c :: a)
                    | None => None
                    end
  end.

Definition stem_ext (name : str) : str * option str :=
  match rsplit_dot (rev name) with
  | None => (name, None)
  | Some ([], _) => (name, None)
  | Some (b, a) => (rev b, Some (rev a))
  end.

(** Path::extension. *)
Definition extension (p : str) : option str :=
  match split_path p with
  | None => None
  | Some (_, name) => snd (stem_ext name)
  end.

(** PathBuf::set_extension with a non-empty extension. *)
Definition set_extension (p e : str) : str :=
  match split_path p with
  | None => p
  | Some (pre, name) => pre ++ fst (stem_ext name) ++ dot :: e
  end.

(** PathBuf::push. *)
Definition push (p q : str) : str :=
  if is_absolute q then q
  else match rev p with
       | [] => q
       | c :: _ => if c =? slash then p ++ q else p ++ slash :: q
       end.

(** Path::components without the [.] ones, and whether there is a root.  A leading [.], which
    the library keeps, only matters below where the parent of [./x] is tested; [.] is then
    represented by the empty path, and skipping create_dir_all on an existing directory or
    running it on the empty path are both without effect. *)
Definition cpath : Type := bool * list str.

Definition components (p : str) : cpath :=
  (is_absolute p,
   filter (fun s => negb (str_eqb s []) && negb (str_eqb s [dot])) (split_slash p)).

(** Path::parent. *)
Definition cparent (p : cpath) : option cpath :=
  match snd p with
  | [] => None
  | _ => Some (fst p, removelast (snd p))
  end.

(** ** The file system *)

Inductive node := File (content : list N) | Dir.

Definition loc := list str.
Definition fsys := loc -> option node.

Fixpoint loc_eqb (a b : loc) : bool :=
  match a, b with
  | [], [] => true
  | x :: a', y :: b' => str_eqb x y && loc_eqb a' b'
  | _, _ => false
  end.

Definition put (fs : fsys) (l : loc) (n : node) : fsys :=
  fun l' => if loc_eqb l' l then Some n else fs l'.

(** Path resolution: every name but the last must be an existing directory. *)
Inductive found := At (l : loc) | NotFound | NotADirectory.

Definition enter (cur : loc) (s : str) : loc :=
  if str_eqb s [] || str_eqb s [dot] then cur
  else if str_eqb s [dot; dot] then removelast cur
  else cur ++ [s].

Fixpoint walk (fs : fsys) (cur : loc) (segs : list str) : found :=
  match segs with
  | [] => At cur
  | s :: r =>
      match fs cur with
      | Some Dir => walk fs (enter cur s) r
      | Some (File _) => NotADirectory
      | None => NotFound
      end
  end.

(** ** File types *)

Inductive ftype := Css | Js | Json | Unknown.

(** FileType::as_str (cli.rs 69-76). *)
Definition as_str (t : ftype) : str :=
  match t with
  | Css => S_ "css"
  | Js => S_ "js"
  | Json => S_ "json"
  | Unknown => S_ "unknown"
  end.

(** FromStr and ValueEnum for FileType (cli.rs 79-106): the values -t accepts. *)
Definition parse_type (s : str) : option ftype :=
  if str_eqb s (S_ "css") then Some Css
  else if str_eqb s (S_ "js") then Some Js
  else if str_eqb s (S_ "json") then Some Json
  else None.

Definition to_ascii_lowercase (s : str) : str :=
  map (fun c => if (65 <=? c) && (c <=? 90) then c + 32 else c) s.

(** std's from_utf8, as used by [OsStr::to_str] and [read_to_string]. *)
Fixpoint decode_loop (fuel : nat) (b : list N) : option str :=
  match b with
  | [] => Some []
  | a :: r =>
      match fuel with
      | O => None
      | S f =>
          match utf8_char_width a with
          | O => None
          | S O => option_map (cons a) (decode_loop f r)
          | w =>
              match from_utf8_first (firstn w b) with
              | None => None
              | Some c => option_map (cons c) (decode_loop f (skipn w b))
              end
          end
      end
  end.

Definition decode (b : list N) : option str := decode_loop (length b) b.

(** From<&PathBuf> for FileType (cli.rs 108-121). [None]: the unwrap of [to_str] panics. *)
Definition type_of_path (p : str) : option ftype :=
  match extension p with
  | None => Some Unknown
  | Some e =>
      let e := to_ascii_lowercase e in
      match decode e with
      | None => None
      | Some _ =>
          if str_eqb e (S_ "css") then Some Css
          else if str_eqb e (S_ "js") then Some Js
          else if str_eqb e (S_ "json") then Some Json
          else Some Unknown
      end
  end.

(** ** The tool *)

(** How the processing of one file ends: with the message that the output was generated, with
    an error message, or with a panic. *)
Inductive result := Done | Reported | Panicked.

Section Tool.

(** The minifier for a type, the current directory, what the system permits (reading a file,
    writing or creating a file, creating a directory) and how much of what is written to a
    file is accepted. *)
Variable minify_as : ftype -> str -> outcome str.
Variable cwd : loc.
Variable can_read can_write can_make : loc -> bool.
Variable device : loc -> writer.

Definition resolve (fs : fsys) (p : str) : found :=
  match p with
  | [] => NotFound
  | _ => walk fs (if is_absolute p then [] else cwd) (split_slash p)
  end.

Definition cresolve (fs : fsys) (p : cpath) : found :=
  match p with
  | (false, []) => NotFound
  | (abs, cs) => walk fs (if abs then [] else cwd) cs
  end.

Definition dir_at (fs : fsys) (f : found) : bool :=
  match f with
  | At l => match fs l with Some Dir => true | _ => false end
  | _ => false
  end.

(** Path::is_dir. *)
Definition is_dir (fs : fsys) (p : str) : bool := dir_at fs (resolve fs p).
Definition cis_dir (fs : fsys) (p : cpath) : bool := dir_at fs (cresolve fs p).

(** mkdir(2): made, refused because an ancestor is missing, refused otherwise. *)
Inductive made := Made (fs : fsys) | Missing | Refused.

Definition mkdir (fs : fsys) (p : cpath) : made :=
  match cresolve fs p with
  | At l =>
      match fs l with
      | Some _ => Refused
      | None => if can_make l then Made (put fs l Dir) else Refused
      end
  | NotFound => Missing
  | NotADirectory => Refused
  end.

(** std::fs::create_dir_all, on the reversed components. *)
Fixpoint create_dir_all (fs : fsys) (abs : bool) (rc : list str) : fsys * bool :=
  match rc with
  | [] =>
      if abs then
        match mkdir fs (abs, []) with
        | Made fs' => (fs', true)
        | Missing => (fs, false)
        | Refused => (fs, cis_dir fs (abs, []))
        end
      else (fs, true)
  | _ :: rc' =>
      let p := (abs, rev rc) in
      match mkdir fs p with
      | Made fs' => (fs', true)
      | Refused => (fs, cis_dir fs p)
      | Missing =>
          let (fs1, ok) := create_dir_all fs abs rc' in
          if ok then
            match mkdir fs1 p with
            | Made fs2 => (fs2, true)
            | _ => (fs1, cis_dir fs1 p)
            end
          else (fs1, false)
      end
  end.

(** get_all_data (cli.rs 123-128): the text, an error to report, or a panic. Opening a
    directory succeeds on Unix and reading it fails. *)
Inductive data := Text (s : str) | Failed | Crash.

Definition get_all_data (fs : fsys) (p : str) : data :=
  match resolve fs p with
  | At l =>
      match fs l with
      | None => Failed
      | Some n =>
          if can_read l then
            match n with
            | Dir => Crash
            | File b => match decode b with Some s => Text s | None => Crash end
            end
          else Failed
      end
  | _ => Failed
  end.

(** OpenOptions::new().truncate(true).write(true).create(true).open(..) (cli.rs 160-164). *)
Definition open_truncate (fs : fsys) (p : str) : option (fsys * loc) :=
  match resolve fs p with
  | At l =>
      match fs l with
      | Some Dir => None
      | _ => if can_write l then Some (put fs l (File []), l) else None
      end
  | _ => None
  end.

(** The output path (cli.rs 142-159), with the directories created for it; [None] in the
    second place: the unwrap of create_dir_all panics. *)
Definition out_path (fs : fsys) (file : str) (out : option str) (t : ftype)
  : fsys * option str :=
  match out with
  | Some op =>
      let op := if is_dir fs op
                then set_extension (push op file) (S_ "min." ++ as_str t) else op in
      match cparent (components op) with
      | Some d =>
          if cis_dir fs d then (fs, Some op)
          else let (fs', ok) := create_dir_all fs (fst d) (rev (snd d)) in
               (fs', if ok then Some op else None)
      | None => (fs, Some op)
      end
  | None => (fs, Some (set_extension file (S_ "min." ++ as_str t)))
  end.

(** The closure [func] (cli.rs 166-175): [None] is the panic of [expect]. *)
Definition func (t : ftype) (s : str) : option str :=
  match t with
  | Unknown => None
  | _ => match minify_as t s with Ok m => Some m | _ => None end
  end.

(** write_out_file (cli.rs 130-187). *)
Definition write_out_file (fs : fsys) (file : str) (out : option str) (ext : option ftype)
  : fsys * result :=
  match (match ext with Some t => Some t | None => type_of_path file end) with
  | None => (fs, Panicked)
  | Some Unknown => (fs, Reported)
  | Some t =>
      match get_all_data fs file with
      | Failed => (fs, Reported)
      | Crash => (fs, Panicked)
      | Text content =>
          match out_path fs file out t with
          | (fs1, None) => (fs1, Panicked)
          | (fs1, Some o) =>
              match open_truncate fs1 o with
              | None => (fs1, Reported)
              | Some (fs2, l) =>
                  match func t content with
                  | None => (fs2, Panicked)
                  | Some m =>
                      let (held, ok) := write_chunks [encode m] (device l) in
                      (put fs2 l (File held), if ok then Done else Reported)
                  end
              end
          end
      end
  end.

(** The loop of Cli::init (cli.rs 53-55): a panic ends the process. *)
Fixpoint cli_run (fs : fsys) (files : list str) (out : option str) (ext : option ftype)
  : fsys * bool :=
  match files with
  | [] => (fs, true)
  | f :: r =>
      match write_out_file fs f out ext with
      | (fs', Panicked) => (fs', false)
      | (fs', _) => cli_run fs' r out ext
      end
  end.

End Tool.

(** The minifiers the tool uses (cli.rs 166-175). *)
Definition real_minify (alpha : N -> bool) (t : ftype) (s : str) : outcome str :=
  match t with
  | Css => CssModel.css_minify alpha s
  | Js => JsUtilModel.js_minify s
  | Json => json_minify s
  | Unknown => Panic
  end.

(** What a path names and what the command line tool should do with it, stated on the text of
    paths.  The file system and the resolution of paths in it ([fsys], [resolve]) are those of
    CliModel: they describe the system, not the tool. *)
From Coq Require Import String List NArith Bool Arith.
From Verif Require Import Base CliModel.
Import ListNotations.
Open Scope N_scope.
Open Scope list_scope.

(** Text that does not change what a path names when it follows a name: slashes and [.]. *)
Inductive ignored : str -> Prop :=
| ignored_nil : ignored []
| ignored_slash : forall t, ignored t -> ignored (slash :: t)
| ignored_dot : forall t, ignored t -> (t = [] \/ exists u, t = slash :: u) ->
    ignored (slash :: dot :: t).

(** [p] is [pre], the last name [name], and ignored text. *)
Definition names (p pre name trail : str) : Prop :=
  p = pre ++ name ++ trail /\ (pre = [] \/ exists d, pre = d ++ [slash]) /\
  name <> [] /\ name <> [dot] /\ name <> [dot; dot] /\ ~ In slash name /\ ignored trail.

(** [name] has the extension [e]: the text after the last dot, when something precedes it. *)
Definition dotted (name stem e : str) : Prop :=
  name = stem ++ dot :: e /\ stem <> [] /\ ~ In dot e.

(** No extension: no dot but perhaps the first character. *)
Definition undotted (name : str) : Prop :=
  forall a b, name = a ++ dot :: b -> a = [].

(** Equal up to the case of ASCII letters, [w] being in lower case. *)
Definition spells (e w : str) : Prop :=
  Forall2 (fun x y => x = y /\ ~ (65 <= x <= 90) \/ 65 <= x <= 90 /\ y = x + 32) e w.

Definition word (t : ftype) : option str :=
  match t with
  | Css => Some (S_ "css")
  | Js => Some (S_ "js")
  | Json => Some (S_ "json")
  | Unknown => None
  end.

(** The extension of [p] is that of [t]. *)
Definition typed (p : str) (t : ftype) : Prop :=
  exists w pre name trail stem e,
    word t = Some w /\ names p pre name trail /\ dotted name stem e /\ spells e w.

(** The type chosen with -t, or else the extension. *)
Definition chosen (ext : option ftype) (p : str) (t : ftype) : Prop :=
  word t <> None /\ (ext = Some t \/ ext = None /\ typed p t).

(** [o] is [p] with its extension replaced (or, without one, followed) by [min.<type>]. *)
Definition renamed (p : str) (t : ftype) (o : str) : Prop :=
  exists w pre name trail stem,
    word t = Some w /\ names p pre name trail /\
    ((exists e, dotted name stem e) \/ undotted name /\ stem = name) /\
    o = pre ++ stem ++ S_ ".min." ++ w.

(** [q] is [p] taken in the directory [d], unless [p] is absolute. *)
Inductive joined (d p : str) : str -> Prop :=
| joined_absolute : forall r, p = slash :: r -> joined d p p
| joined_ended : forall d', is_absolute p = false -> d = d' ++ [slash] -> joined d p (d ++ p)
| joined_open : is_absolute p = false -> d <> [] -> (forall d', d <> d' ++ [slash]) ->
    joined d p (d ++ slash :: p).

Section Target.
Variable cwd : loc.

(** A path leads to a directory. *)
Definition directory (fs : fsys) (p : str) : Prop :=
  exists l, resolve cwd fs p = At l /\ fs l = Some Dir.

(** The output path for the input path [p]. *)
Inductive target (fs : fsys) (p : str) (t : ftype) : option str -> str -> Prop :=
| target_default : forall o, renamed p t o -> target fs p t None o
| target_file : forall o, ~ directory fs o -> target fs p t (Some o) o
| target_dir : forall d q o, directory fs d -> joined d p q -> renamed q t o ->
    target fs p t (Some d) o.

(** [p] leads to a file with the text [s]. *)
Definition holds_text (fs : fsys) (p : str) (l : loc) (s : str) : Prop :=
  resolve cwd fs p = At l /\ fs l = Some (File (encode s)) /\
  Forall (fun c => is_scalar c = true) s.

End Target.

(** [fs'] differs from [fs] at [lo] only, except for new directories. *)
Definition only_at (fs fs' : fsys) (lo : loc) : Prop :=
  forall l, l <> lo -> fs' l = fs l \/ fs l = None /\ fs' l = Some Dir.

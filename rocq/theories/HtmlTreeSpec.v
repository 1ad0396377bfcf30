(** The tree a browser builds of an HTML document: the tree construction stage of the WHATWG
    standard (13.2.6), in the part that needs no error handling, with the tags it adds where the
    document leaves them out.  The builder below is stricter than a browser: it gives up at what
    the standard calls a parse error (end tags of void elements excepted, which are passed over),
    and at a few more things, listed at [allowed].  Tokens are those of HtmlSyntaxSpec. *)
From Coq Require Import String List NArith Bool.
From Verif Require Import Base HtmlSpec HtmlSyntaxSpec.
Import ListNotations.
Open Scope N_scope.

(** ** Kinds of elements *)

Inductive kind :=
| KHtml | KHead | KBody
| KMeta            (* elements of the head with a content *)
| KLink            (* void elements of the head *)
| KList | KLi
| KDl | KDef
| KSelect | KDatalist | KOptgroup | KOption
| KTable | KCaption | KCols | KCol | KGroup | KRow | KCell
| KVoid | KBr | KHr
| KP | KHeading
| KBlock           (* others that do not go into a paragraph *)
| KForm | KAlone   (* not inside one of the same name *)
| KPlain           (* every other name *)
| KNone.           (* elements with rules of their own that are left out here *)

Definition kinds : list (kind * list str) := map (fun p => (fst p, map S_ (snd p)))
  [(KHtml, ["html"]); (KHead, ["head"]); (KBody, ["body"]);
   (KMeta, ["title"; "script"; "style"; "noscript"]); (KLink, ["base"; "basefont"; "bgsound"; "link"; "meta"]);
   (KList, ["ul"; "ol"; "menu"]); (KLi, ["li"]); (KDl, ["dl"]); (KDef, ["dd"; "dt"]);
   (KSelect, ["select"]); (KDatalist, ["datalist"]); (KOptgroup, ["optgroup"]); (KOption, ["option"]);
   (KTable, ["table"]); (KCaption, ["caption"]); (KCols, ["colgroup"]); (KCol, ["col"]);
   (KGroup, ["thead"; "tbody"; "tfoot"]); (KRow, ["tr"]); (KCell, ["td"; "th"]);
   (KVoid, ["area"; "embed"; "img"; "input"; "keygen"; "param"; "source"; "track"; "wbr"]);
   (KBr, ["br"]); (KHr, ["hr"]); (KP, ["p"]); (KHeading, ["h1"; "h2"; "h3"; "h4"; "h5"; "h6"]);
   (KBlock, ["address"; "article"; "aside"; "blockquote"; "center"; "details"; "dialog"; "dir"; "div";
             "fieldset"; "figcaption"; "figure"; "footer"; "header"; "hgroup"; "main"; "nav"; "search";
             "section"; "summary"; "pre"; "xmp"]);
   (KForm, ["form"]); (KAlone, ["a"; "button"; "nobr"]);
   (KNone, ["frame"; "frameset"; "image"; "isindex"; "listing"; "math"; "noframes"; "plaintext"; "rb"; "rp"; "rt"; "rtc"; "svg"; "template"])]%string.

Fixpoint find_kind (l : list (kind * list str)) (n : str) : kind :=
  match l with
  | [] => KPlain
  | (k, ns) :: r => if existsb (str_eqb n) ns then k else find_kind r n
  end.

(** [n] in lower case. *)
Definition kind_of (n : str) : kind := find_kind kinds n.

Definition void (k : kind) : bool :=
  match k with KLink | KCol | KVoid | KBr | KHr => true | _ => false end.

(** ** Which tags may be left out *)

(** An open element [x] ends where an element [m] starts. *)
Definition closes (m x : kind) : bool :=
  match x, m with
  | KLi, KLi | KDef, KDef => true
  | KOption, (KOption | KOptgroup) | KOptgroup, KOptgroup => true
  | KCell, (KCell | KRow | KGroup) | KRow, (KRow | KGroup) | KGroup, KGroup => true
  | KCols, (KCols | KRow | KGroup) => true
  | _, _ => false
  end.

(** ... and where an element around it ends. *)
Definition loose (x : kind) : bool :=
  match x with KLi | KDef | KOption | KOptgroup | KCell | KRow | KGroup | KCols => true | _ => false end.

(** ** What goes where *)

(** No text and no other elements directly in these. *)
Definition structured (x : kind) : bool :=
  match x with KList | KDl | KSelect | KOptgroup | KTable | KGroup | KRow | KCols => true | _ => false end.

(** [m] directly in [x]; [None]: in the body. *)
Definition child_ok (x : option kind) (m : kind) : bool :=
  match m, x with
  | KLi, Some KList | KDef, Some KDl | KOptgroup, Some KSelect => true
  | KOption, Some (KSelect | KOptgroup | KDatalist) => true
  | (KCaption | KCols | KGroup), Some KTable | KCol, Some KCols | KRow, Some KGroup | KCell, Some KRow => true
  | (KLi | KDef | KOptgroup | KOption | KCaption | KCols | KGroup | KCol | KRow | KCell), _ => false
  | (KHtml | KHead | KBody | KNone), _ => false
  | KHeading, Some KHeading => false
  | _, Some k => negb (structured k) && match k with KOption => false | _ => true end
  | _, None => true
  end.

(** Those that would end an open paragraph. *)
Definition ends_p (k : kind) : bool :=
  match k with KP | KHeading | KBlock | KForm | KHr | KList | KDl | KTable => true | _ => false end.

Definition top (stk : list str) : option kind := match stk with x :: _ => Some (kind_of x) | [] => None end.

Definition is_p (x : str) : bool := match kind_of x with KP => true | _ => false end.
Definition single_kind (k : kind) : bool := match k with KForm | KAlone => true | _ => false end.

(** More than a browser asks for: every paragraph is ended by its tag; lists, definitions, options and
    tables contain nothing but what is made for them. *)
Definition allowed (stk : list str) (n : str) : bool :=
  child_ok (top stk) (kind_of n) && negb (ends_p (kind_of n) && existsb is_p stk)
  && negb (single_kind (kind_of n) && existsb (str_eqb n) stk).

(** ** The walk through a tree *)

(** A tree is told in document order: where elements start and end, and the text. *)
Inductive event :=
| Text (c : N)
| Doctype (s : str)
| Open (n : str) (attrs : list (str * str))
| Close (n : str).

(** Insertion modes of the standard; in a table, a cell, a select and so on the mode follows from the
    open elements. *)
Inductive mode := Initial | BeforeHtml | BeforeHead | InHead | AfterHead | InBody | AfterBody.

Definition html_ := S_ "html".
Definition head_ := S_ "head".
Definition body_ := S_ "body".
Definition tbody_ := S_ "tbody".
Definition colgroup_ := S_ "colgroup".

(** The tags that are added before an element of the head, after the head, before the body. *)
Definition up_to_head (m : mode) : option (list event) :=
  match m with
  | Initial | BeforeHtml => Some [Open html_ []; Open head_ []]
  | BeforeHead => Some [Open head_ []]
  | InHead => Some []
  | _ => None
  end.

Definition past_head (m : mode) : option (list event) :=
  match m with
  | Initial | BeforeHtml => Some [Open html_ []; Open head_ []; Close head_]
  | BeforeHead => Some [Open head_ []; Close head_]
  | InHead => Some [Close head_]
  | AfterHead => Some []
  | _ => None
  end.

Definition up_to_body (m : mode) : option (list event) :=
  match m with
  | InBody => Some []
  | _ => option_map (fun l => l ++ [Open body_ []]) (past_head m)
  end.

(** The open elements, innermost first, without html, head and body.  The innermost ones that
    satisfy [p] are closed. *)
Fixpoint pop (p : str -> bool) (stk : list str) : list str * list str :=
  match stk with
  | x :: r => if p x then let (a, b) := pop p r in (x :: a, b) else ([], stk)
  | [] => ([], [])
  end.

(** What is opened around an element that is directly in a table. *)
Definition between (stk : list str) (k : kind) : list str :=
  match top stk, k with
  | Some KTable, KRow => [tbody_]
  | Some KTable, KCol => [colgroup_]
  | _, _ => []
  end.

(** An element is put in. *)
Definition put (stk : list str) (n : str) (a : list (str * str)) (sl : bool) : option (list event * list str) :=
  let k := kind_of n in
  let (c, s1) := pop (fun x => closes k (kind_of x)) stk in
  let o := between s1 k in
  let s2 := o ++ s1 in
  if allowed s2 n then
    if void k then Some (map Close c ++ map (fun x => Open x []) o ++ [Open n a; Close n], s2)
    else if sl then None
    else Some (map Close c ++ map (fun x => Open x []) o ++ [Open n a], n :: s2)
  else None.

(** An element is closed. *)
Definition shut (stk : list str) (n : str) : option (list event * list str) :=
  let (c, s1) := pop (fun x => loose (kind_of x) && negb (str_eqb x n)) stk in
  match s1 with
  | x :: s2 => if str_eqb x n then Some (map Close c ++ [Close x], s2) else None
  | [] => None
  end.

Definition in_mode (m : mode) (pre : list event) (r : option (list event * list str)) : option (list event * mode * list str) :=
  match r with Some (ev, s) => Some (pre ++ ev, m, s) | None => None end.

Definition start_step (m : mode) (stk : list str) (n : str) (a : list (str * str)) (sl : bool) : option (list event * mode * list str) :=
  match stk with
  | _ :: _ => match m with InBody => in_mode InBody [] (put stk n a sl) | _ => None end
  | [] =>
      match kind_of n with
      | KHtml =>
          match m with
          | Initial | BeforeHtml => if sl then None else Some ([Open n a], BeforeHead, [])
          | _ => None
          end
      | KHead =>
          match m with
          | Initial | BeforeHtml => if sl then None else Some ([Open html_ []; Open n a], InHead, [])
          | BeforeHead => if sl then None else Some ([Open n a], InHead, [])
          | _ => None
          end
      | KBody =>
          match past_head m with
          | Some pre => if sl then None else Some (pre ++ [Open n a], InBody, [])
          | None => None
          end
      | KMeta | KLink =>
          match m with
          | InBody => in_mode InBody [] (put [] n a sl)
          | _ => match up_to_head m with Some pre => in_mode InHead pre (put [] n a sl) | None => None end
          end
      | _ => match up_to_body m with Some pre => in_mode InBody pre (put [] n a sl) | None => None end
      end
  end.

Definition end_step (m : mode) (stk : list str) (n : str) : option (list event * mode * list str) :=
  match kind_of n with
  | KLink | KCol | KVoid | KHr => match m with AfterBody => None | _ => Some ([], m, stk) end
  | KHead =>
      match m, stk, past_head m with
      | AfterHead, _, _ => None
      | _, [], Some pre => Some (pre, AfterHead, [])
      | _, _, _ => None
      end
  | KBody => match stk, up_to_body m with [], Some pre => Some (pre, AfterBody, []) | _, _ => None end
  | KHtml =>
      match m, stk, up_to_body m with
      | AfterBody, _, _ => Some ([], AfterBody, stk)
      | _, [], Some pre => Some (pre, AfterBody, [])
      | _, _, _ => None
      end
  | _ => match m with InHead | InBody => in_mode m [] (shut stk n) | _ => None end
  end.

(** White space. *)
Definition blank_step (m : mode) (c : N) : list event :=
  match m with Initial | BeforeHtml | BeforeHead => [] | _ => [Text c] end.

Definition text_ok (stk : list str) : bool := match top stk with Some k => negb (structured k) | None => true end.

Definition char_step (m : mode) (stk : list str) (c : N) : option (list event * mode * list str) :=
  if html_blank c then Some (blank_step m c, m, stk)
  else match stk with
       | _ :: _ => if text_ok stk then Some ([Text c], m, stk) else None
       | [] => match up_to_body m with Some pre => Some (pre ++ [Text c], InBody, []) | None => None end
       end.

(** A comment counts as white space (as in C66). *)
Definition step (m : mode) (stk : list str) (t : token) : option (list event * mode * list str) :=
  match t with
  | HChar c => char_step m stk c
  | HComment _ => Some (blank_step m 0x20, m, stk)
  | HDoctype s => match m with Initial => Some ([Doctype s], BeforeHtml, stk) | _ => None end
  | HStart n a sl => start_step m stk (map low n) a sl
  | HEnd n => end_step m stk (map low n)
  end.

(** The end of the document. *)
Definition finish (m : mode) (stk : list str) : option (list event) :=
  match stk, (match m with AfterBody => Some [] | _ => up_to_body m end) with
  | [], Some pre => Some (pre ++ [Close body_; Close html_])
  | _, _ => None
  end.

Fixpoint run (m : mode) (stk : list str) (ts : list token) : option (list event) :=
  match ts with
  | [] => finish m stk
  | t :: r => match step m stk t with
              | Some (ev, m', stk') => option_map (app ev) (run m' stk' r)
              | None => None
              end
  end.

Definition build (ts : list token) : option (list event) := run Initial [] ts.

(** ** Trees that look the same *)

(** The ends of the elements next to which white space does not count. *)
Definition edge (e : event) : bool :=
  match e with
  | Open n _ | Close n => loose (kind_of n) || match kind_of n with KHtml | KHead | KBody => true | _ => false end
  | _ => false
  end.

(** Runs of white space in a value are one blank; the type of a style or script does not count. *)
Definition plain_attrs (n : str) (a : list (str * str)) : list (str * str) :=
  map (fun x => (fst x, skeleton (snd x))) (filter (fun x => negb (typed_element n && str_eqb (fst x) (S_ "type"))) a).

Definition plain_event (e : event) : event :=
  match e with
  | Open n a => Open n (plain_attrs n a)
  | Doctype s => Doctype (skeleton s)
  | _ => e
  end.

(** Runs of white space are one blank, or none next to an edge.  [at_edge]: after an edge; [gap]:
    after white space. *)
Fixpoint look (at_edge gap : bool) (l : list event) : list event :=
  match l with
  | [] => if gap && negb at_edge then [Text 0x20] else []
  | e :: r =>
      match e with
      | Text c => if html_blank c then look at_edge true r
                  else (if gap && negb at_edge then [Text 0x20] else []) ++ e :: look false false r
      | _ => if edge e then plain_event e :: look true false r
             else (if gap && negb at_edge then [Text 0x20] else []) ++ plain_event e :: look false false r
      end
  end.

(** The tree of a document, as far as it counts. *)
Definition tree (ts : list token) : option (list event) := option_map (look true false) (build ts).

Definition html_tree (s : str) : option (list event) :=
  match html_tokens s with Some ts => tree ts | None => None end.

(** The open elements after a part of the walk; [None] if it is not one through a tree. *)
Fixpoint nest (stk : list str) (l : list event) : option (list str) :=
  match l with
  | [] => Some stk
  | Open n _ :: r => nest (n :: stk) r
  | Close n :: r => match stk with x :: s => if str_eqb x n then nest s r else None | [] => None end
  | _ :: r => nest stk r
  end.

(** ** Documents whose tags may be left out *)

Definition silent (t : token) : bool := match t with HChar c => html_blank c | HComment _ => true | _ => false end.

(** The next token but for white space and comments. *)
Fixpoint next (ts : list token) : option token :=
  match ts with
  | [] => None
  | t :: r => if silent t then next r else Some t
  end.

Definition gone (t : token) : bool := match worth t with [] => true | _ => false end.

Definition kind_at (t : option token) : option kind :=
  match t with Some (HStart n _ _) => Some (kind_of (map low n)) | _ => None end.
Definition end_kind_at (t : option token) : option kind :=
  match t with Some (HEnd n) => Some (kind_of (map low n)) | _ => None end.

(** An end tag of [k] may be left out before [t]: the end of an element around it, or the start of
    one that ends it. *)
Definition end_implied (k : kind) (t : option token) : bool :=
  match kind_at t, end_kind_at t with
  | Some m, _ => closes m k
  | None, Some m => negb (void m)
  | None, None => false
  end.

(** A tag that is left out between [prev] and [nxt]. *)
Definition fits (prev : option token) (t : token) (nxt : option token) : bool :=
  match t with
  | HEnd n => if loose (kind_of n) then end_implied (kind_of n) nxt else true
  | HStart n _ _ =>
      match kind_of n with
      | KGroup =>
          (match kind_at prev, end_kind_at prev with
           | Some (KTable | KCol | KCols), _ | None, Some (KCaption | KCols) => true
           | _, _ => false
           end) && match kind_at nxt with Some KRow => true | _ => false end
      | KBody =>
          match kind_at nxt, end_kind_at nxt with
          | Some (KMeta | KLink), _ => false
          | None, Some m => negb (void m)
          | _, _ => true
          end
      | _ => true
      end
  | _ => true
  end.

(** Every tag that is left out is one that a browser adds again. *)
Fixpoint replaceable (prev : option token) (ts : list token) : bool :=
  match ts with
  | [] => true
  | t :: r => if silent t then replaceable prev r
              else (if gone t then fits prev t (next r) else true) && replaceable (Some t) r
  end.

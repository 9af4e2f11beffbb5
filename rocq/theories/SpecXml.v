(** What a reader of XML sees in a text: the productions of XML 1.0 (fifth edition) for
    elements without processing instructions, comments, CDATA sections, numeric
    references and blanks around "=".  Names are restricted to ASCII. *)
From Coq Require Import String List NArith.
From Verif Require Import Base Mir Erd Chumsky Parser Svg SpecMir.
Import ListNotations.

(** The tree read: elements with their attributes and content, and runs of characters. *)
Inductive xml :=
| Element (name : str) (attributes : list (str * str)) (content : list xml)
| Chars (s : str).

(** Production 2, [Char]. *)
Definition xml_char (c : char) : Prop :=
  (c = 9 \/ c = 10 \/ c = 13 \/ (32 <= c <= 55295) \/ (57344 <= c <= 65533) \/ (65536 <= c <= 1114111))%N.

(** Production 3, [S]. *)
Definition blanks (s : str) : Prop := forall c, In c s -> In c [32; 9; 13; 10]%N.

(** Productions 4-5, [Name]. *)
Definition name_start (c : char) : Prop := (65 <= c <= 90 \/ 97 <= c <= 122 \/ c = 58 \/ c = 95)%N.
Definition name_char (c : char) : Prop := (name_start c \/ 48 <= c <= 57 \/ c = 45 \/ c = 46)%N.
Definition is_name (s : str) : Prop := exists c s', s = c :: s' /\ name_start c /\ Forall name_char s'.

(** Section 4.6, predefined entities. *)
Definition entities : list (str * char) :=
  [(lit "lt", 60%N); (lit "gt", 62%N); (lit "amp", 38%N); (lit "quot", 34%N); (lit "apos", 39%N)].

(** [char_data q s t]: the characters [s] stand for the characters [t]; the
    characters of [q], "<" and "&" do not stand for themselves. *)
Inductive char_data (q : list char) : str -> str -> Prop :=
| cd_nil : char_data q [] []
| cd_char c s t : xml_char c -> c <> 60%N -> c <> 38%N -> ~ In c q -> char_data q s t ->
    char_data q (c :: s) (c :: t)
| cd_entity n c s t : In (n, c) entities -> char_data q s t ->
    char_data q (lit "&" ++ n ++ lit ";" ++ s) (c :: t).

(** Production 14, [CharData]: "]]>" does not occur. *)
Definition text_run (s t : str) : Prop :=
  s <> [] /\ char_data [] s t /\ ~ exists a b, s = a ++ lit "]]>" ++ b.

(** Productions 40-41: attributes, then blanks. *)
Inductive attributes : str -> list (str * str) -> Prop :=
| no_attributes w : blanks w -> attributes w []
| attribute w k q v t s l : w <> [] -> blanks w -> is_name k -> In q [34; 39]%N -> char_data [q] v t ->
    attributes s l -> attributes (w ++ k ++ lit "=" ++ [q] ++ v ++ [q] ++ s) ((k, t) :: l).

Definition no_chars_first (l : list xml) : Prop := match l with Chars _ :: _ => False | _ => True end.

(** Productions 39-44, [element] and [content]. *)
Inductive element : str -> xml -> Prop :=
| element_empty n s a : is_name n -> attributes s a -> NoDup (map fst a) ->
    element (lit "<" ++ n ++ s ++ lit "/>") (Element n a [])
| element_full n s a c l w : is_name n -> attributes s a -> NoDup (map fst a) -> content c l -> blanks w ->
    element (lit "<" ++ n ++ s ++ lit ">" ++ c ++ lit "</" ++ n ++ w ++ lit ">") (Element n a l)
with content : str -> list xml -> Prop :=
| content_nil : content [] []
| content_element s x r l : element s x -> content r l -> content (s ++ r) (x :: l)
| content_text s t r l : text_run s t -> content r l -> no_chars_first l -> content (s ++ r) (Chars t :: l).

(** ** The drawing in the tree *)

Definition newline : str := [10%N].

(** The tree shows the drawing: the same elements with the same attributes in the same
    order; texts are on a line of their own. *)
Inductive shows : xml -> svg_node -> Prop :=
| shows_empty n a : shows (Element n a []) (Elem n a [])
| shows_text n a s : shows (Element n a [Chars (newline ++ s ++ newline)]) (Elem n a [TextNode s])
| shows_group n a l c : c <> [] -> shows_all l c -> shows (Element n a l) (Elem n a c)
with shows_all : list xml -> list svg_node -> Prop :=
| shows_last : shows_all [Chars newline] []
| shows_next x l e c : shows x e -> shows_all l c -> shows_all (Chars newline :: x :: l) (e :: c).

(** ** Printing of texts *)

(** Characters that have to be escaped, escaped. *)
Fixpoint escaped (s : str) : str :=
  match s with
  | [] => []
  | c :: s' =>
      (if N.eqb c 38 then lit "&amp;"
       else if N.eqb c 60 then lit "&lt;"
       else if N.eqb c 62 then lit "&gt;"
       else [c]) ++ escaped s'
  end.

(** Texts that need no escaping. *)
Definition harmless (s : str) : Prop := ~ In 60%N s /\ ~ In 38%N s /\ ~ In 62%N s.

(** All names of tables and fields have the property. *)
Definition names_are (P : str -> Prop) (m : module) : Prop :=
  forall e, In e (definitions (m_entries m)) ->
    P (ent_name e) /\ forall f, In f (ent_fields e) -> P (f_name f).
Definition readable (s : str) : Prop := Forall xml_char s.

(** The formatter prints the text so that it is read back. *)
Definition printed (fmt : str -> str) (t : str) : Prop :=
  char_data [] (fmt t) t /\ ~ exists a b, fmt t = a ++ lit "]]>" ++ b.

(** The source is accepted without complaint. *)
Definition accepted (src : str) (m : module) : Prop :=
  exists r, parse src = Ret r /\ pr_lex_errs r = [] /\ pr_parse_errs r = [] /\ pr_ast r = Some m.

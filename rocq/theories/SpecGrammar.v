(** The grammar of modules over tokens, written from the EBNF comment of
    /repo/src/parser.rs (lines 8-21), with one deviation: the dot of a relation
    end is mandatory and the name after it optional (the code at lines 196-204,
    where the comment has it the other way round: [entity = identifier, [ ".",
    identifier ]]).  Each rule also gives the meaning of the phrase. *)
From Coq Require Import String Ascii List NArith.
From Verif Require Import Base Erd Parser SpecLex.
Import ListNotations.

Definition Dot : token := KCtrl (ch ".").
Definition Open : token := KCtrl (ch "{").
Definition Close : token := KCtrl (ch "}").
Definition Semi : token := KCtrl (ch ";").

(** SEP = newline | ";" *)
Inductive g_sep : token -> Prop :=
| sep_newline : g_sep KNewline
| sep_semi : g_sep Semi.

(** PAD, on tokens: any number of separators (blanks are not tokens). *)
Definition g_pad (p : list token) : Prop := Forall g_sep p.

(** entity_field_type, entity_field_key *)
Inductive g_type : token -> field_type -> Prop :=
| ty_int : g_type KInt TInt
| ty_uuid : g_type KUuid TUuid
| ty_text : g_type KText TText
| ty_timestamp : g_type KTimestamp TTimestamp.

Inductive g_key : token -> field_key -> Prop :=
| key_pk : g_key KPK PrimaryKey
| key_fk : g_key KFK ForeignKey.

(** entity_field = identifier, entity_field_type, [ entity_field_key ] *)
Inductive g_field : list token -> entity_field -> Prop :=
| field_plain n t ty : g_type t ty -> g_field [KIdent n; t] (mkField n ty None)
| field_keyed n t ty k key :
    g_type t ty -> g_key k key -> g_field [KIdent n; t; k] (mkField n ty (Some key)).

(** item, { SEP, PAD, item } *)
Inductive g_list {A} (item : list token -> A -> Prop) : list token -> list A -> Prop :=
| list_one ts a : item ts a -> g_list item ts [a]
| list_more ts a s p us l :
    item ts a -> g_sep s -> g_pad p -> g_list item us l ->
    g_list item (ts ++ s :: p ++ us) (a :: l).

(** ... | EMPTY *)
Inductive g_items {A} (item : list token -> A -> Prop) : list token -> list A -> Prop :=
| items_empty : g_items item [] []
| items_some ts l : g_list item ts l -> g_items item ts l.

(** entity_definition = identifier, PAD, "{", PAD, entity_fields, PAD, "}" *)
Inductive g_def : list token -> entity_definition -> Prop :=
| def_intro n p1 p2 fts fs p3 :
    g_pad p1 -> g_pad p2 -> g_items g_field fts fs -> g_pad p3 ->
    g_def (KIdent n :: p1 ++ Open :: p2 ++ fts ++ p3 ++ [Close]) (mkEntity n fs).

(** entity = identifier, ".", [ identifier ] *)
Inductive g_path : list token -> entity_path -> Prop :=
| path_entity e : g_path [KIdent e; Dot] (PEntity e)
| path_field e f : g_path [KIdent e; Dot; KIdent f] (PField e f).

(** relation = entity, PAD, edge, PAD, entity *)
Inductive g_rel : list token -> entity_relation -> Prop :=
| rel_intro ts a p1 p2 us b :
    g_path ts a -> g_pad p1 -> g_pad p2 -> g_path us b ->
    g_rel (ts ++ p1 ++ KEdge :: p2 ++ us) (mkRelation a b).

(** module_entry = entity_definition | relation *)
Inductive g_entry : list token -> module_entry -> Prop :=
| entry_def ts d : g_def ts d -> g_entry ts (EDef d)
| entry_rel ts r : g_rel ts r -> g_entry ts (ERel r).

(** [ identifier, PAD ] *)
Inductive g_name : list token -> option str -> Prop :=
| name_none : g_name [] None
| name_some n p : g_pad p -> g_name (KIdent n :: p) (Some n).

(** erd_module = PAD, "erd", PAD, [ identifier, PAD ], "{", PAD, module_entries, PAD, "}", PAD *)
Inductive g_module : list token -> module -> Prop :=
| module_intro p1 p2 nts n p3 ets es p4 p5 :
    g_pad p1 -> g_pad p2 -> g_name nts n -> g_pad p3 -> g_items g_entry ets es ->
    g_pad p4 -> g_pad p5 ->
    g_module (p1 ++ KErd :: p2 ++ nts ++ Open :: p3 ++ ets ++ p4 ++ Close :: p5) (mkModule n es).

(** [respaced ts us]: [us] is [ts] with some runs of separators replaced by other
    non-empty runs. *)
Inductive respaced : list token -> list token -> Prop :=
| rs_nil : respaced [] []
| rs_same t l l' : respaced l l' -> respaced (t :: l) (t :: l')
| rs_run s p s' p' l l' :
    g_sep s -> g_pad p -> g_sep s' -> g_pad p' -> respaced l l' ->
    respaced (s :: p ++ l) (s' :: p' ++ l').

(** What may precede an entry: nothing, or entries and separators. *)
Inductive before_entry : list token -> Prop :=
| before_none : before_entry []
| before_some ts es s p :
    g_list g_entry ts es -> g_sep s -> g_pad p -> before_entry (ts ++ s :: p).

(** Modules whose names need no quotes and whose relations join fields. *)
Definition plain (n : str) : Prop := word n /\ ~ reserved n.
Definition plain_field (f : entity_field) : Prop := plain (f_name f).
Inductive plain_path : entity_path -> Prop :=
| plain_path_intro e f : plain e -> plain f -> plain_path (PField e f).
Inductive plain_entry : module_entry -> Prop :=
| plain_def d : plain (ent_name d) -> Forall plain_field (ent_fields d) -> plain_entry (EDef d)
| plain_rel r : plain_path (rel_start r) -> plain_path (rel_end r) -> plain_entry (ERel r).
Definition plain_module (m : module) : Prop :=
  (forall n, m_name m = Some n -> plain n) /\ Forall plain_entry (m_entries m).

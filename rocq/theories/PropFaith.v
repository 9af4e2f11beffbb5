(** The diagram can be read off the picture: C95. *)
From Coq Require Import String List Arith NArith.
From Verif Require Import Base Mir Erd Layout Svg Render Parser Cli SpecMir SpecLayout SpecLink SpecEnds SpecCrash SpecXml FaithFacts.
Import ListNotations.

(** C95: modules of any size with the same picture define the same tables, with the
    same fields, types and keys, in the same order. *)
Theorem C95_tables_can_be_read_off :
  forall m m' svg, render_module m = Okay svg -> render_module m' = Okay svg ->
  definitions (m_entries m) = definitions (m_entries m').
Proof. exact tables_read_off. Qed.
Print Assumptions C95_tables_can_be_read_off.

(** They also have the same relations, in the same order and direction, up to the
    relations that refer to nothing and up to ends that touch: a table cannot be told
    from its middle row where a line ends at its side, nor from its last row where one
    ends below. *)
Theorem C95_relations_can_be_read_off :
  forall m m' svg ls ls', fits (table_rows m) -> render_module m = Okay svg -> render_module m' = Okay svg ->
  links [] (m_entries m) ls -> links [] (m_entries m') ls' ->
  Forall2 (fun a b => touching (table_rows m) (fst a) (fst b) /\ touching (table_rows m) (snd a) (snd b)) ls ls'.
Proof. exact relations_read_off. Qed.
Print Assumptions C95_relations_can_be_read_off.

(** Between fields there is no such doubt. *)
Theorem C95_field_relations_can_be_read_off :
  forall m m' svg ls ls', fits (table_rows m) -> render_module m = Okay svg -> render_module m' = Okay svg ->
  (forall r, In (ERel r) (m_entries m ++ m_entries m') -> fields_joined r) ->
  links [] (m_entries m) ls -> links [] (m_entries m') ls' -> ls = ls'.
Proof. exact field_relations_read_off. Qed.
Print Assumptions C95_field_relations_can_be_read_off.

(** With tables as ends there is: two sources whose outputs are the same. *)
Theorem C95_ends_refuted :
  exists src src' m m' ls ls', accepted src m /\ accepted src' m' /\
  ending (main escaped src) = Ret tt /\ main escaped src = main escaped src' /\
  links [] (m_entries m) ls /\ links [] (m_entries m') ls' /\ ls <> ls'.
Proof. exact middle_rows_alike. Qed.
Print Assumptions C95_ends_refuted.

(** The same for what the program writes, with names escaped, and for names that
    need no escaping. *)
Theorem C95_output_can_be_read :
  forall src src' r r' m m', parse src = Ret r -> pr_ast r = Some m -> parse src' = Ret r' -> pr_ast r' = Some m' ->
  names_are readable m -> names_are readable m' -> ending (main escaped src) = Ret tt -> ending (main escaped src') = Ret tt ->
  stdout (main escaped src) = stdout (main escaped src') -> definitions (m_entries m) = definitions (m_entries m') /\
  (fits (table_rows m) -> forall ls ls', links [] (m_entries m) ls -> links [] (m_entries m') ls' ->
   Forall2 (fun a b => touching (table_rows m) (fst a) (fst b) /\ touching (table_rows m) (snd a) (snd b)) ls ls').
Proof. exact outputs_read_off. Qed.
Print Assumptions C95_output_can_be_read.

Theorem C95_plain_output_can_be_read :
  forall src src' r r' m m', parse src = Ret r -> pr_ast r = Some m -> parse src' = Ret r' -> pr_ast r' = Some m' ->
  names_are (fun s => readable s /\ harmless s) m -> names_are (fun s => readable s /\ harmless s) m' ->
  ending (main (fun s => s) src) = Ret tt -> ending (main (fun s => s) src') = Ret tt ->
  stdout (main (fun s => s) src) = stdout (main (fun s => s) src') -> definitions (m_entries m) = definitions (m_entries m') /\
  (fits (table_rows m) -> forall ls ls', links [] (m_entries m) ls -> links [] (m_entries m') ls' ->
   Forall2 (fun a b => touching (table_rows m) (fst a) (fst b) /\ touching (table_rows m) (snd a) (snd b)) ls ls').
Proof. exact plain_outputs_read_off. Qed.
Print Assumptions C95_plain_output_can_be_read.

(** Two different modules with the same picture: the second has a relation that
    refers to nothing, and a name. *)
Definition bare_module : module := row_module.
Definition other_module : module :=
  mkModule (Some (lit "shop")) (ERel (mkRelation (PEntity (lit "a")) (PEntity (lit "b"))) :: m_entries row_module).
Definition same_picture : svg_node := match render_module row_module with Okay svg => svg | _ => elem "none" end.
Example C95_example :
  bare_module <> other_module /\ fits (table_rows bare_module) /\
  render_module bare_module = Okay same_picture /\ render_module other_module = Okay same_picture.
Proof.
  split; [discriminate|]. split; [vm_compute; discriminate|]. split; vm_compute; reflexivity.
Qed.

(** A table called [PK] whose fields are called [int] and [PK]. *)
Definition tricky_source : str := lit "erd { `PK` { `int` text FK; `PK` int PK } }".
Example C95_example_names : exists r m, parse tricky_source = Ret r /\ pr_ast r = Some m /\ names_are readable m /\ ending (main escaped tricky_source) = Ret tt.
Proof.
  do 2 eexists. split; [vm_compute; reflexivity|]. split; [reflexivity|]. split; [|vm_compute; reflexivity].
  intros e [<-|[]]. split; [repeat constructor; unfold xml_char; Lia.lia|].
  intros f [<-|[<-|[]]]; repeat constructor; unfold xml_char; Lia.lia.
Qed.

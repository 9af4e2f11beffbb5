(** The properties of the conversion to a document: C16-C21. *)
From Coq Require Import String List NArith.
From Verif Require Import Base Mir Erd Parser SpecMir MirFacts.
Import ListNotations.

Definition two_users : module :=
  mkModule None
    [EDef (mkEntity (lit "a") [mkField (lit "x") TInt None; mkField (lit "x") TText (Some PrimaryKey)]);
     EDef (mkEntity (lit "b") [mkField (lit "y") TUuid (Some ForeignKey)]);
     ERel (mkRelation (PField (lit "a") (lit "x")) (PEntity (lit "b")));
     ERel (mkRelation (PField (lit "a") (lit "x")) (PEntity (lit "c")));
     EDef (mkEntity (lit "b") []);
     ERel (mkRelation (PEntity (lit "a")) (PEntity (lit "b")))].

(** C16 *)
Theorem C16_into_mir_never_aborts :
  forall m, exists d, into_mir m = Ret d /\ Forall (edge_in d) (d_edges d).
Proof. exact into_mir_returns. Qed.
Print Assumptions C16_into_mir_never_aborts.

(** C17 *)
Theorem C17_tables_and_rows :
  forall m d, into_mir m = Ret d ->
  Forall2 (shows_table d) (body_children d) (definitions (m_entries m)).
Proof. exact into_mir_tables. Qed.
Print Assumptions C17_tables_and_rows.

(** C18 *)
Theorem C18_document_is_a_tree : forall m d, into_mir m = Ret d -> is_tree d.
Proof. exact into_mir_tree. Qed.
Print Assumptions C18_document_is_a_tree.

(** The body, and the three tables with their rows; both definitions of [b] are shown. *)
Example C16_C17_C18_example :
  exists d, into_mir two_users = Ret d /\ body_children d = [4; 7; 9] /\
    map n_children (d_nodes d) = [[4; 7; 9]; []; []; []; [1; 2; 3]; []; []; [5; 6]; []; [8]] /\
    length (definitions (m_entries two_users)) = 3.
Proof. vm_compute. eauto. Qed.

(** C19 *)
Theorem C19_edges_are_resolvable_relations :
  forall m d, into_mir m = Ret d ->
  forall l, edges_of [] (m_entries m) l <-> d_edges d = l.
Proof. exact into_mir_edges. Qed.
Print Assumptions C19_edges_are_resolvable_relations.

Theorem C19_resolution :
  forall pre p, (forall i j, resolves pre p i -> resolves pre p j -> i = j) /\
                ((exists i, resolves pre p i) <-> declared pre p).
Proof. exact (fun pre p => conj (resolves_unique pre p) (iff_sym (resolves_declared pre p))). Qed.
Print Assumptions C19_resolution.

(** The ends of an edge show the names written in the relation. *)
Theorem C19_edges_show_their_relation :
  forall m d, into_mir m = Ret d ->
  Forall (fun x => exists r, In (ERel r) (m_entries m) /\
            shows_path d (rel_start r) (e_source x) /\ shows_path d (rel_end r) (e_target x))
         (d_edges d).
Proof. exact into_mir_edges_show. Qed.
Print Assumptions C19_edges_show_their_relation.

(** The duplicate field [x] resolves to the later row 3, the second [b] wins over
    the first, the undeclared [c] is dropped. *)
Example C19_example :
  exists d, into_mir two_users = Ret d /\ d_edges d = [mkEdge 3 7 None; mkEdge 4 9 None].
Proof. vm_compute. eauto. Qed.

(** C20 *)
Theorem C20_distinct_definitions_resolve :
  forall name ds rs d, distinct_names ds ->
  into_mir (mkModule name (map EDef ds ++ map ERel rs)) = Ret d ->
  exists ls, d_edges d = concat ls /\ Forall2 (relation_edges d (map EDef ds)) rs ls.
Proof. exact distinct_relations. Qed.
Print Assumptions C20_distinct_definitions_resolve.

Example C20_example :
  distinct_names [mkEntity (lit "a") [mkField (lit "x") TInt None; mkField (lit "y") TInt None];
                  mkEntity (lit "b") [mkField (lit "x") TInt None]].
Proof. split; repeat constructor; simpl; intuition discriminate. Qed.

(** C21 *)
Theorem C21_forward_reference_is_lost :
  forall name pre r post,
  ~ declared pre (rel_start r) \/ ~ declared pre (rel_end r) ->
  into_mir (mkModule name (pre ++ ERel r :: post)) = into_mir (mkModule name (pre ++ post)).
Proof. exact forward_reference_lost. Qed.
Print Assumptions C21_forward_reference_is_lost.

(** Moving a relation in front of a definition removes its edge. *)
Theorem C21_order_matters_refuted :
  exists e r, let m1 := mkModule None [EDef e; ERel r] in let m2 := mkModule None [ERel r; EDef e] in
  exists d1 d2, into_mir m1 = Ret d1 /\ into_mir m2 = Ret d2 /\
    length (d_edges d1) = 1 /\ length (d_edges d2) = 0 /\ d_nodes d1 = d_nodes d2.
Proof. exact order_matters. Qed.
Print Assumptions C21_order_matters_refuted.

(** The second relation of [two_users] names a table that is not there. *)
Example C21_example :
  ~ declared (firstn 3 (m_entries two_users)) (PEntity (lit "c")) /\
  declared (firstn 3 (m_entries two_users)) (PField (lit "a") (lit "x")).
Proof.
  split.
  - intros (e & [<-|[<-|[]]] & [H|(f & _ & H)]); discriminate H.
  - eexists. split; [left; reflexivity|]. right. eexists. split; [left; reflexivity|reflexivity].
Qed.

(** C66 *)
Theorem C66_styles : forall m d, into_mir m = Ret d -> Forall (styled_table d) (body_children d).
Proof. exact into_mir_styles. Qed.
Print Assumptions C66_styles.

Example C66_example :
  exists d, into_mir two_users = Ret d /\ length (body_children d) = 3.
Proof. vm_compute. eauto. Qed.

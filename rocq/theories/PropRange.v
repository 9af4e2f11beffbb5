(** Tables beyond the range in which coordinates are exact: C25, C65. *)
From Coq Require Import String List Arith NArith ZArith.
From Verif Require Import Base F32 Geometry Mir Erd Layout Svg Render Parser Cli SpecMir SpecLayout SpecLink SpecCrash SpecXml RangeFacts.
Import ListNotations.

(** The limit on the height of the diagram in C25 is needed: in a table of 479353
    rows, two rows next to each other overlap. *)
Theorem C25_large_tables_refuted :
  exists m d d' vb k id jd r s, into_mir m = Ret d /\ place_nodes d = (d', vb) /\ countable m /\
  row_id d 0 k id /\ row_id d 0 (S k) jd /\ has_rect d' id r /\ has_rect d' jd s /\
  flt (min_y r) (min_y s) = true /\ flt (min_y s) (max_y r) = true.
Proof. exact long_overlaps. Qed.
Print Assumptions C25_large_tables_refuted.

(** So is that in C65: in a table of 15339172 rows, two fields lie at the same
    place. A relation between them cannot be drawn, and the program aborts. *)
Theorem C65_large_tables_refuted :
  exists src m ls p, accepted src m /\ countable m /\ links [] (m_entries m) ls /\
  Forall (fun pq => exists i k j l, pq = (Row i k, Row j l) /\ (i, k) <> (j, l)) ls /\
  (forall r, In (ERel r) (m_entries m) -> fields_joined r) /\ render_module m = Abort p.
Proof. exact long_crashes. Qed.
Print Assumptions C65_large_tables_refuted.

(** Without lines there is no limit: a diagram none of whose relations refers to
    anything is drawn, whatever its size. *)
Theorem C65_without_lines : forall m, links [] (m_entries m) [] -> exists svg, render_module m = Okay svg.
Proof. exact no_lines. Qed.
Print Assumptions C65_without_lines.

(** Two tables, with a relation between them that comes too early. *)
Example C65_no_lines : links [] [ERel (mkRelation (PEntity (lit "a")) (PEntity (lit "b"))); EDef (mkEntity (lit "a") []); EDef (mkEntity (lit "b") [])] [].
Proof.
  apply links_drop; [|repeat constructor]. left. intros p R. inversion R as [n i e (N & _)|]. destruct i; discriminate N.
Qed.

(** The same tables with few fields are harmless. *)
Example C65_small_table :
  match render_module (long_module 2) with Okay _ => true | _ => false end = true /\ countable (long_module 2).
Proof. split; [vm_compute; reflexivity|]. constructor; [reflexivity|constructor]. Qed.

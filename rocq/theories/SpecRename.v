(** Renaming the entities and fields of a module. *)
From Coq Require Import List.
From Verif Require Import Base Erd SpecMir.
Import ListNotations.

(** [f] renames entities; [g e] renames the fields of the entity called [e]. *)
Section Rename.
Variables (f : str -> str) (g : str -> str -> str).
Definition rename_path (p : entity_path) : entity_path :=
  match p with
  | PEntity e => PEntity (f e)
  | PField e x => PField (f e) (g e x)
  end.
Definition rename_field (e : str) (x : entity_field) : entity_field := mkField (g e (f_name x)) (f_type x) (f_key x).
Definition rename_entity (e : entity_definition) : entity_definition :=
  mkEntity (f (ent_name e)) (map (rename_field (ent_name e)) (ent_fields e)).
Definition rename_entry (e : module_entry) : module_entry :=
  match e with
  | EDef d => EDef (rename_entity d)
  | ERel r => ERel (mkRelation (rename_path (rel_start r)) (rename_path (rel_end r)))
  end.
End Rename.

(** The names that occur: of entities, and of fields of an entity. *)
Definition path_entity (p : entity_path) : str := match p with PEntity e => e | PField e _ => e end.
Definition occurs_entity (m : module) (n : str) : Prop :=
  (exists e, In (EDef e) (m_entries m) /\ ent_name e = n) \/
  exists r, In (ERel r) (m_entries m) /\ (path_entity (rel_start r) = n \/ path_entity (rel_end r) = n).
Definition occurs_field (m : module) (n x : str) : Prop :=
  (exists e y, In (EDef e) (m_entries m) /\ ent_name e = n /\ In y (ent_fields e) /\ f_name y = x) \/
  exists r, In (ERel r) (m_entries m) /\ (rel_start r = PField n x \/ rel_end r = PField n x).

(** Different names stay different: those of entities, and those of fields of
    the same entity. *)
Definition keeps_apart (f : str -> str) (g : str -> str -> str) (m : module) : Prop :=
  (forall a b, occurs_entity m a -> occurs_entity m b -> f a = f b -> a = b) /\
  (forall n a b, occurs_field m n a -> occurs_field m n b -> g n a = g n b -> a = b).

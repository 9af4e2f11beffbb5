(** Pictures of a module and of a longer one. *)
From Coq Require Import String List.
From Verif Require Import Base Geometry Mir Erd Svg SpecMir SpecRender.
Import ListNotations.

(** The elements that draw relations: of each, its line and the discs at its
    ends. *)
Inductive draws_relations : list svg_node -> Prop :=
| draws_none : draws_relations []
| draws_one line disc disc' l :
    svg_name line = lit "path" -> svg_name disc = lit "circle" -> svg_name disc' = lit "circle" ->
    draws_relations l -> draws_relations (line :: disc :: disc' :: l).

(** [m'] defines the entities of [m], in the same order, and maybe more after
    them.  The relations may be any. *)
Definition grows (m m' : module) : Prop :=
  exists more, definitions (m_entries m') = definitions (m_entries m) ++ more.

(** The tables of the first picture, of [n] entities with the texts [ts], are
    in the second one, element for element, at the same place in the order of
    drawing; only relations come after the tables. *)
Definition keeps_tables (n : nat) (ts : list str) (svg svg' : svg_node) : Prop :=
  exists ground clips clips' tables tables' lines lines',
    svg_children svg = ground :: Elem (lit "defs") [] clips :: tables ++ lines /\
    svg_children svg' = ground :: Elem (lit "defs") [] (clips ++ clips') :: (tables ++ tables') ++ lines' /\
    length clips = n /\ flat_map texts tables = ts /\
    Forall (fun x => svg_name x <> lit "path") (tables ++ tables') /\
    draws_relations lines /\ draws_relations lines'.

(** A path without bends from left to right, and one with bends. *)
Definition level (ps : list point) : Prop := exists y, forall p, In p ps -> py p = y.
Definition reroutes (d d' : document) : Prop :=
  exists e e' ps ps', hd_error (d_edges d) = Some e /\ hd_error (d_edges d') = Some e' /\
    e_source e = e_source e' /\ e_target e = e_target e' /\
    e_path e = Some ps /\ e_path e' = Some ps' /\ level ps /\ ~ level ps'.

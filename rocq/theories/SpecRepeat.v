(** Relations between places that are joined already. *)
From Coq Require Import String List ZArith.
From Verif Require Import Base Geometry Mir Svg SpecF32 SpecRender SpecLink.
Import ListNotations.

(** The places at the ends of the relations. *)
Definition ends (ls : list (place * place)) : list place := flat_map (fun pq => [fst pq; snd pq]) ls.

(** The second document has the nodes of the first, and one edge more, after [k] others. *)
Definition one_more (k : nat) (e : edge_data) (d d' : document) : Prop :=
  d_nodes d' = d_nodes d /\ exists a b, d_edges d = a ++ b /\ d_edges d' = a ++ e :: b /\ length a = k.

(** The second picture has the elements of the first, and behind the line number [k]
    the elements of line number [j] once more. *)
Definition one_line_more (k j : nat) (svg svg' : svg_node) : Prop :=
  svg_name svg' = svg_name svg /\ svg_attrs svg' = svg_attrs svg /\
  exists front before after line,
    svg_children svg = front ++ concat (before ++ after) /\
    svg_children svg' = front ++ concat (before ++ line :: after) /\
    flat_map (elements "path") front = [] /\ length before = k /\ nth_error before j = Some line /\
    Forall (fun l => exists path c1 c2, l = [path; c1; c2] /\ svg_name path = lit "path" /\
                     svg_name c1 = lit "circle" /\ svg_name c2 = lit "circle") (before ++ after).

(** How far it is along the points; every step is counted in whole units. *)
Fixpoint travelled (zs : list (Z * Z)) : Z :=
  match zs with
  | a :: ((b :: _) as zs') => ((Z.abs (fst a - fst b) + Z.abs (snd a - snd b)) / 2 + travelled zs')%Z
  | _ => 0%Z
  end.
Definition as_far (ps qs : list point) : Prop :=
  exists zs ws, Forall2 (fun p z => hpoint p (fst z) (snd z)) ps zs /\ Forall2 (fun p z => hpoint p (fst z) (snd z)) qs ws /\
  travelled zs = travelled ws.

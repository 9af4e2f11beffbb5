(** The part of the [svg] 0.13 crate that the renderer uses (a dependency, not
    code of /repo): element trees and their serialisation. *)
From Coq Require Import String List Bool NArith.
From Verif Require Import Base.
Import ListNotations.

(** [svg::node::Attributes]: a map from names to values, kept sorted by name
    because the serialiser prints it in that order. *)
Definition attrs := list (str * str).

(** [Element::assign]/[set] *)
Fixpoint attr_set (k v : str) (m : attrs) : attrs :=
  match m with
  | [] => [(k, v)]
  | (k', v') :: m' =>
      if str_eqb k k' then (k, v) :: m'
      else if str_leb k k' then (k, v) :: (k', v') :: m'
      else (k', v') :: attr_set k v m'
  end.

Inductive svg_node :=
| Elem (name : str) (a : attrs) (children : list svg_node)
| TextNode (s : str).

(** [Element::set], on an element *)
Definition set (k : string) (v : str) (e : svg_node) : svg_node :=
  match e with
  | Elem n a c => Elem n (attr_set (lit k) v a) c
  | TextNode s => TextNode s
  end.

(** [Element::append]/[add] *)
Definition append (child e : svg_node) : svg_node :=
  match e with
  | Elem n a c => Elem n a (c ++ [child])
  | TextNode s => TextNode s
  end.

Definition elem (name : string) : svg_node := Elem (lit name) [] [].

(** One attribute: quoted with double quotes, with single quotes when the value
    contains a double quote, dropped when it contains both. *)
Definition quote : char := 34%N.
Definition apos : char := 39%N.
Definition show_attr (kv : str * str) : str :=
  let '(k, v) := kv in
  match existsb (N.eqb apos) v, existsb (N.eqb quote) v with
  | true, true => []
  | _, false => lit " " ++ k ++ lit "=" ++ [quote] ++ v ++ [quote]
  | false, true => lit " " ++ k ++ lit "=" ++ [apos] ++ v ++ [apos]
  end.

(** [Display] of a node.  [fmt_text] prints the content of a text node; whether
    svg 0.13 escapes it is left open. *)
Fixpoint show_svg (fmt_text : str -> str) (n : svg_node) : str :=
  match n with
  | TextNode s => fmt_text s
  | Elem name a c =>
      lit "<" ++ name ++ concat (map show_attr a) ++
      match c with
      | [] => lit "/>"
      | _ => lit ">" ++ concat (map (fun x => [10%N] ++ show_svg fmt_text x) c) ++
             [10%N] ++ lit "</" ++ name ++ lit ">"
      end
  end.

(** [svg::Document::new()] *)
Definition svg_document : svg_node := set "xmlns" (lit "http://www.w3.org/2000/svg") (elem "svg").

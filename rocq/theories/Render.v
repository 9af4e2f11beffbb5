(** /repo/src/renderer.rs, [SVGRenderer] *)
From Coq Require Import String List Arith NArith ZArith Bool.
From Verif Require Import Base F32 Color Geometry Mir Route Svg.
Import ListNotations.

(** error.rs:5-11; the I/O failure only arises from the writer, see [render_to]. *)
Inductive backend_error :=
| IoFailure
| InvalidLayout (id : node_id).

(** [Result<A, BackendError>] of a computation that may also panic. *)
Inductive outcome (A : Type) :=
| Okay (a : A)
| Fail (e : backend_error)
| Abort (p : panic).
Arguments Okay {A} a.
Arguments Fail {A} e.
Arguments Abort {A} p.

Definition obind {A B} (x : outcome A) (f : A -> outcome B) : outcome B :=
  match x with Okay a => f a | Fail e => Fail e | Abort p => Abort p end.

Notation "'let!' x := e 'in' f" := (obind e (fun x => f))
  (at level 200, x pattern, e at level 100, f at level 200, right associativity).

(** [for x in xs { s = f(s, x)?; }] *)
Fixpoint ofold {A S} (f : S -> A -> outcome S) (xs : list A) (s : S) : outcome S :=
  match xs with
  | [] => Okay s
  | x :: xs' => let! s' := f s x in ofold f xs' s'
  end.

(** renderer.rs:36-39 *)
Definition text_px : f32 := f32_of_Z 12.
Definition border_radius : f32 := f32_of_Z 6.
Definition clip_prefix : str := lit "record-clip-path-".
Definition background_color : web_color := RGB (mkRGB 28 28 28).

Definition setf (k : string) (v : f32) (e : svg_node) : svg_node := set k (show_f32 v) e.
Definition setc (k : string) (c : web_color) (e : svg_node) : svg_node := set k (show_color c) e.
Definition set_opt {A} (f : A -> svg_node -> svg_node) (o : option A) (e : svg_node) : svg_node :=
  match o with Some a => f a e | None => e end.

(** renderer.rs:45-56 *)
Definition view_box_attr (r : rect) : str :=
  show_f32 (min_x r) ++ lit ", " ++ show_f32 (min_y r) ++ lit ", " ++
  show_f32 (width (rsize r)) ++ lit ", " ++ show_f32 (height (rsize r)).

(** renderer.rs:59-62 *)
Definition background_rect : svg_node :=
  setc "fill" background_color (set "height" (lit "100%") (set "width" (lit "100%") (elem "rect"))).

(** renderer.rs:74-80 and 95-101 *)
Definition round_rect (o : point) (s : size) : svg_node :=
  setf "ry" border_radius (setf "rx" border_radius
    (setf "height" (height s) (setf "width" (width s)
      (setf "y" (py o) (setf "x" (px o) (elem "rect")))))).

Definition clip_id (i : nat) : str := clip_prefix ++ show_nat i.

(** renderer.rs:67-86: one child of the body, first pass *)
Definition clip_step (d : document) (defs : svg_node) (ic : nat * node_id) : outcome svg_node :=
  let '(i, id) := ic in
  match get_node d id with
  | None => Okay defs
  | Some n =>
      match n_kind n with
      | KRecord _ =>
          match n_origin n with
          | None => Fail (InvalidLayout id)
          | Some o =>
              match n_size n with
              | None => Fail (InvalidLayout id)
              | Some s =>
                  Okay (append (append (round_rect o s) (set "id" (clip_id i) (elem "clipPath"))) defs)
              end
          end
      | _ => Okay defs
      end
  end.

(** renderer.rs:218-235 *)
Inductive anchor := AStart | AMiddle | AEnd.
Definition text_anchor (a : anchor) : str :=
  match a with AStart => lit "start" | AMiddle => lit "middle" | AEnd => lit "end" end.

(** renderer.rs:238-269 *)
Definition draw_text (t : text_span) (o : point) (a : option anchor) : svg_node :=
  let e := append (TextNode (t_text t))
             (set "dominant-baseline" (lit "middle") (setf "y" (py o) (setf "x" (px o) (elem "text")))) in
  let e := set_opt (fun a => set "text-anchor" (text_anchor a)) a e in
  let e := set_opt (setc "fill") (t_color t) e in
  let e := set_opt (fun f => set "font-family" (show_font_family f)) (t_family t) e in
  let e := set_opt (fun w => set "font-weight" (show_font_weight w)) (t_weight t) e in
  set_opt (fun s => set "font-size" (show_font_size s)) (t_size t) e.

(** renderer.rs:120-130 *)
Definition field_background (f : field_shape) (r : rect) (clip : str) : list svg_node :=
  match fs_bg f with
  | None => []
  | Some c =>
      [ set "clip-path" (lit "url(#" ++ clip ++ lit ")") (setc "fill" c
          (setf "height" (height (rsize r)) (setf "width" (width (rsize r))
            (setf "y" (min_y r) (setf "x" (min_x r) (elem "rect")))))) ]
  end.

(** renderer.rs:132-145 *)
Definition field_border (index : nat) (f : field_shape) (r : rect) : list svg_node :=
  if Nat.ltb 0 index then
    [ set_opt (fun c e => set "stroke-width" (lit "1") (setc "stroke" c e)) (fs_border f)
        (setf "y2" (min_y r) (setf "y1" (min_y r) (setf "x2" (max_x r) (setf "x1" (min_x r) (elem "line"))))) ]
  else [].

(** renderer.rs:155-173 *)
Definition field_texts (f : field_shape) (r : rect) : list svg_node :=
  let column_width := fdiv (width (rsize r)) (f32_of_Z 5) in
  draw_text (fs_title f) (mkPoint (fadd (min_x r) text_px) (mid_y r)) (Some AStart) ::
  match fs_subtitle f with
  | None => []
  | Some t => [draw_text t (mkPoint (fadd (min_x r) (fmul column_width (f32_of_Z 4))) (mid_y r)) (Some AEnd)]
  end.

(** renderer.rs:176-197 *)
Definition field_badge (f : field_shape) (r : rect) : list svg_node :=
  match fs_badge f with
  | None => []
  | Some b =>
      let rx := fsub (max_x r) text_px in
      let cy := mid_y r in
      let radius := fsub (fdiv (height (rsize r)) (f32_of_Z 2)) (f32_of_Z 6) in
      match b_bg b with
      | None => []
      | Some c => [setc "fill" c (setf "r" radius (setf "cy" cy (setf "cx" (fsub rx radius) (elem "circle"))))]
      end ++
      [draw_text (badge_text_span b) (mkPoint (fsub rx radius) cy) (Some AMiddle)]
  end.

(** renderer.rs:112-198: one field *)
Definition field_elements (index : nat) (f : field_shape) (r : rect) (clip : str) : list svg_node :=
  field_background f r clip ++ field_border index f r ++ field_texts f r ++ field_badge f r.

Definition append_all (es : list svg_node) (svg : svg_node) : svg_node :=
  fold_left (fun s e => append e s) es svg.

Definition field_step (d : document) (clip : str) (svg : svg_node) (ic : nat * node_id) : outcome svg_node :=
  let '(i, id) := ic in
  match get_node d id with
  | None => Okay svg
  | Some n =>
      match n_kind n with
      | KField f =>
          match node_rect n with
          | None => Fail (InvalidLayout id)
          | Some r => Okay (append_all (field_elements i f r clip) svg)
          end
      | _ => Okay svg
      end
  end.

(** renderer.rs:95-107 *)
Definition record_background (rs : record_shape) (o : point) (s : size) : svg_node :=
  set_opt (setc "fill") (rs_bg rs) (set_opt (setc "stroke") (rs_border rs) (round_rect o s)).

(** renderer.rs:88-200: one child of the body, second pass *)
Definition record_step (d : document) (svg : svg_node) (ic : nat * node_id) : outcome svg_node :=
  let '(i, id) := ic in
  match get_node d id with
  | None => Okay svg
  | Some n =>
      match n_kind n with
      | KRecord rs =>
          match n_origin n with
          | None => Fail (InvalidLayout id)
          | Some o =>
              match n_size n with
              | None => Fail (InvalidLayout id)
              | Some s =>
                  ofold (field_step d (clip_id i)) (enum (n_children n))
                        (append (record_background rs o s) svg)
              end
          end
      | _ => Okay svg
      end
  end.

(** renderer.rs:275-283 *)
Definition circle_radius : f32 := f32_of_Z 4.
Definition path_radius : f32 := f32_of_Z 6.
Definition stroke_width : f32 := fdiv (f32_of_Z 3) (f32_of_Z 2).
Definition stroke_color : web_color := RGB (mkRGB 136 136 136).

(** renderer.rs:294-307 *)
Definition end_circle (p : point) : svg_node :=
  setc "fill" background_color (setf "stroke-width" stroke_width (setc "stroke" stroke_color
    (setf "r" circle_radius (setf "cy" (py p) (setf "cx" (px p) (elem "circle")))))).

Definition sp : str := lit " ".
(** [format!("L{} {}", x, y)] and [format!("Q{} {} {} {}", ..)] *)
Definition cmd_m (x y : f32) : str := lit "M" ++ show_f32 x ++ sp ++ show_f32 y.
Definition cmd_l (x y : f32) : str := lit "L" ++ show_f32 x ++ sp ++ show_f32 y.
Definition cmd_q (x1 y1 x y : f32) : str :=
  lit "Q" ++ show_f32 x1 ++ sp ++ show_f32 y1 ++ sp ++ show_f32 x ++ sp ++ show_f32 y.

(** renderer.rs:339-504: the commands for an interior point [pt], number [i] *)
Definition corner (i : nat) (bp pt fp : point) : res (list str) :=
  let x := px pt in
  let y := py pt in
  let r := path_radius in
  match orthogonal_direction bp pt, orthogonal_direction pt fp with
  | Up, Up | Down, Down | Left, Left | Right, Right => Ret [cmd_l x y]
  | Up, Down | Down, Up | Left, Right | Right, Left => Panic (PTurnaround i)
  | Up, Left => Ret [cmd_l x (fadd y r); cmd_q x y (fsub x r) y]
  | Right, Down => Ret [cmd_l (fsub x r) y; cmd_q x y x (fadd y r)]
  | Up, Right => Ret [cmd_l x (fadd y r); cmd_q x y (fadd x r) y]
  | Down, Left => Ret [cmd_l x (fsub y r); cmd_q x y (fsub x r) y]
  | Down, Right => Ret [cmd_l x (fsub y r); cmd_q x y (fadd x r) y]
  | Left, Up => Ret [cmd_l (fadd x r) y; cmd_q x y x (fsub y r)]
  | Left, Down => Ret [cmd_l (fadd x r) y; cmd_q x y x (fadd y r)]
  | Right, Up => Ret [cmd_l (fsub x r) y; cmd_q x y x (fsub y r)]
  end.

(** renderer.rs:329-507: the loop from point [i] on; [bp] is the point before. *)
Fixpoint path_rest (i : nat) (bp : point) (ps : list point) : res (list str) :=
  match ps with
  | [] => Ret []
  | pt :: ps' =>
      match ps' with
      | [] => Ret [cmd_l (px pt) (py pt)]
      | fp :: _ =>
          do c <- corner i bp pt fp;
          do r <- path_rest (S i) pt ps';
          Ret (c ++ r)
      end
  end.

Definition path_commands (ps : list point) : res (list str) :=
  match ps with
  | [] => Ret []
  | p :: ps' => do r <- path_rest 1 p ps'; Ret (cmd_m (px p) (py p) :: r)
  end.

(** renderer.rs:271-520 *)
Definition draw_edge (e : edge_data) : outcome (list svg_node) :=
  match e_path e with
  | None => Fail (InvalidLayout (e_source e))
  | Some ps =>
      match ps with
      | p :: _ :: _ =>
          match path_commands ps with
          | Panic x => Abort x
          | Ret d =>
              Okay [ set "d" (join sp d) (set "fill" (lit "transparent")
                       (setf "stroke-width" stroke_width (setc "stroke" stroke_color (elem "path"))));
                     end_circle p;
                     end_circle (last ps p) ]
          end
      | _ => Abort PShortPath
      end
  end.

(** renderer.rs:203-206 *)
Definition edge_step (svg : svg_node) (e : edge_data) : outcome svg_node :=
  let! es := draw_edge e in Okay (append_all es svg).

(** ** Debug overlay, renderer.rs:522-650 *)

Definition pt_str (x y : f32) : str := show_f32 x ++ lit ", " ++ show_f32 y.

(** renderer.rs:544-573 *)
Definition arrow_points (from to : point) : list str :=
  let x := px to in
  let y := py to in
  let w := fdiv (f32_of_Z 5) (f32_of_Z 2) in
  let h := f32_of_Z 7 in
  let c := circle_radius in
  match orthogonal_direction from to with
  | Up => [pt_str x (fadd y c); pt_str (fsub x w) (fadd (fadd y h) c); pt_str (fadd x w) (fadd (fadd y h) c)]
  | Down => [pt_str x (fsub y c); pt_str (fsub x w) (fsub (fsub y h) c); pt_str (fadd x w) (fsub (fsub y h) c)]
  | Left => [pt_str (fadd x c) y; pt_str (fadd (fadd x h) c) (fadd y w); pt_str (fadd (fadd x h) c) (fsub y w)]
  | Right => [pt_str (fsub x c) y; pt_str (fsub (fsub x h) c) (fadd y w); pt_str (fsub (fsub x h) c) (fsub y w)]
  end.

(** renderer.rs:531-588 *)
Definition debug_edges (g : route_graph) : list svg_node :=
  flat_map (fun e =>
    match nth_error (rg_nodes g) (fst e), nth_error (rg_nodes g) (snd e) with
    | Some s, Some t =>
        let a := rn_loc s in
        let b := rn_loc t in
        [ set "stroke-width" (lit "1") (set "stroke" (lit "red")
            (setf "y2" (py b) (setf "x2" (px b) (setf "y1" (py a) (setf "x1" (px a) (elem "line"))))));
          set "points" (join sp (arrow_points a b)) (set "fill" (lit "red") (elem "polygon")) ]
    | _, _ => []
    end) (rg_edges g).

(** renderer.rs:594-600 and 618-624 *)
Definition debug_circle (fill : string) (p : point) : svg_node :=
  set "fill" (lit fill) (set "stroke-width" (lit "1") (set "stroke" (lit "white")
    (setf "r" circle_radius (setf "cy" (py p) (setf "cx" (px p) (elem "circle")))))).

(** renderer.rs:601-608 and 637-644 *)
Definition debug_label (x y : f32) (s : str) : svg_node :=
  append (TextNode s)
    (set "font-family" (lit "monospace") (set "font-size" (lit "12") (set "fill" (lit "white")
      (set "dominant-baseline" (lit "hanging") (setf "y" y (setf "x" x (elem "text"))))))).

Definition two : f32 := f32_of_Z 2.
Definition four : f32 := f32_of_Z 4.

(** renderer.rs:590-612 *)
Definition debug_nodes (g : route_graph) : list svg_node :=
  flat_map (fun ni => let p := rn_loc (snd ni) in
              [ debug_circle "red" p;
                debug_label (fadd (fadd (px p) circle_radius) two) (fadd (py p) four) (show_nat (fst ni)) ])
           (enum (rg_nodes g)).

(** renderer.rs:614-627 *)
Definition debug_paths (d : document) : list svg_node :=
  flat_map (fun e => match e_path e with
                     | Some ps => map (debug_circle "orange") ps
                     | None => []
                     end) (d_edges d).

(** renderer.rs:629-647 *)
Definition debug_ids (d : document) : list svg_node :=
  flat_map (fun id => match get_node d id with
                      | Some n => match node_rect n with
                                  | Some r => [debug_label (fadd (max_x r) two) (fadd (max_y r) four) (show_nat id)]
                                  | None => []
                                  end
                      | None => []
                      end) (body_children d).

Definition debug_info (g : route_graph) (d : document) : list svg_node :=
  debug_edges g ++ debug_nodes g ++ debug_paths d ++ debug_ids d.

(** renderer.rs:35-212: the document that is written *)
Definition render (view_box : option rect) (debug : option route_graph) (d : document)
  : outcome svg_node :=
  let svg := set_opt (fun r => set "viewBox" (view_box_attr r)) view_box svg_document in
  let svg := append background_rect svg in
  let! defs := ofold (clip_step d) (enum (body_children d)) (elem "defs") in
  let svg := append defs svg in
  let! svg := ofold (record_step d) (enum (body_children d)) svg in
  let! svg := ofold edge_step (d_edges d) svg in
  Okay (match debug with Some g => append_all (debug_info g d) svg | None => svg end).

(** renderer.rs:35-215 with the writer.  [write] says what [write_all] leaves in
    the writer and whether it succeeds; [w] is the content before. *)
Definition render_to (fmt_text : str -> str) (write : str -> str -> str * bool)
    (view_box : option rect) (debug : option route_graph) (d : document) (w : str)
  : str * outcome unit :=
  match render view_box debug d with
  | Okay svg =>
      let '(w', ok) := write w (show_svg fmt_text svg) in
      (w', if ok then Okay tt else Fail IoFailure)
  | Fail e => (w, Fail e)
  | Abort p => (w, Abort p)
  end.

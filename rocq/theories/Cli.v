(** /repo/src/main.rs and /repo/src/evcxr.rs *)
From Coq Require Import String List NArith Bool.
From Verif Require Import Base F32 Geometry Chumsky Erd Mir Route Layout Parser Svg Render.
Import ListNotations.

(** The sequence of calls of main.rs:110-118: AST to MIR, then layout. *)
Definition layout_module (m : module) : res (rect * route_graph * document) :=
  do d <- into_mir m;
  let '(d1, vb) := place_nodes d in
  let d2 := place_terminal_ports d1 in
  do gd <- draw_edge_path rg_new d2;
  let '(g, d3) := gd in
  Ret (vb, g, d3).

(** main.rs:120-128: layout, then render ([DEBUG] is [false], main.rs:8). *)
Definition render_module (m : module) : outcome svg_node :=
  match layout_module m with
  | Panic p => Abort p
  | Ret (vb, g, d) => render (Some vb) None d
  end.

(** What a run of the program leaves behind: the text on stdout, the number of
    reports on stderr, and how it ended ([Ret tt] is exit status 0). *)
Record run := mkRun { stdout : str; reports : nat; ending : res unit }.

(** main.rs:10-134 on source text [src].  Reading the source is modelled in Program.v; failures
    of stdout are not modelled; for the contents of the reports see Report.v. *)
Definition main (fmt_text : str -> str) (src : str) : run :=
  match parse src with
  | Panic p => mkRun [] 0 (Panic p)
  | Ret r =>
      let n := length (pr_lex_errs r) + length (pr_parse_errs r) in
      match pr_ast r with
      | None => mkRun [] n (Ret tt)
      | Some m =>
          match render_module m with
          | Okay svg => mkRun (show_svg fmt_text svg) n (Ret tt)
          | Fail _ => mkRun [] n (Panic PRender)
          | Abort p => mkRun [] n (Panic p)
          end
      end
  end.

(** evcxr.rs:32-43 *)
Definition draw_erd (fmt_text : str -> str) (d : document) (view_box : option rect) : res str :=
  match render view_box None d with
  | Okay svg => Ret (show_svg fmt_text svg)
  | Fail _ => Panic PRender
  | Abort p => Panic p
  end.

(** evcxr.rs:23-30 *)
Definition evcxr_display (svg : str) : str :=
  lit "EVCXR_BEGIN_CONTENT image/svg+xml" ++ [10%N] ++ svg ++ [10%N] ++ lit "EVCXR_END_CONTENT" ++ [10%N].

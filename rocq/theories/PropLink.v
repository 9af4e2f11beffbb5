(** The relations in the picture: C69. *)
From Coq Require Import String List Arith NArith ZArith.
From Verif Require Import Base F32 Erd Parser Svg Render Cli SpecMir SpecLayout SpecRender SpecPicture SpecLink SpecCrash
  PipelineFacts CalmFacts TableFacts LinkFacts PropRender PropCalm.
Import ListNotations.

(** C69: every relation whose ends are defined is drawn, in order, as a rounded
    path from a side of the place its start refers to, to a side of the place
    its end refers to; no other path is drawn. *)
Theorem C69_relations_are_connections :
  forall m svg, fits (table_rows m) -> render_module m = Okay svg ->
  exists ls, links [] (m_entries m) ls /\ (forall ls', links [] (m_entries m) ls' -> ls' = ls) /\
    connected (table_rows m) ls svg.
Proof. exact module_links. Qed.
Print Assumptions C69_relations_are_connections.

(** The program as a whole, for relations between fields: it writes the tables
    in their places and the connections between their rows. *)
Theorem C69_program_draws_the_diagram :
  forall fmt src r m, parse src = Ret r -> pr_ast r = Some m ->
  fits (table_rows m) -> (forall x, In (ERel x) (m_entries m) -> fields_joined x) ->
  exists svg ls, stdout (main fmt src) = show_svg fmt svg /\ ending (main fmt src) = Ret tt /\
    tables_at (fun i => 2 * table_left i)%Z (fun i => 2 * table_top (table_rows m) i)%Z (definitions (m_entries m)) svg /\
    links [] (m_entries m) ls /\ connected (table_rows m) ls svg.
Proof. exact diagram_drawn. Qed.
Print Assumptions C69_program_draws_the_diagram.

(** The relation of the module [shop] joins the first field of the first table
    to the first field of the second. *)
Example C69_example : fits (table_rows shop) /\ links [] (m_entries shop) [(Row 0 1, Row 1 1)].
Proof.
  split; [unfold fits; vm_compute; discriminate|].
  apply links_def, links_def. cbn [app]. apply links_rel; [| |constructor].
  - apply refers_row with (mkEntity (lit "a<b") [mkField (lit "x") TInt (Some PrimaryKey)]).
    + split; [reflexivity|]. split; [cbn; auto|]. intros [|[|j]] e L H; [inversion L| |destruct j; discriminate].
      injection H as <-. intros [E _]. discriminate.
    + split; [eexists; split; reflexivity|]. intros [|k] f L H; [inversion L|destruct k; discriminate].
  - apply refers_row with (mkEntity (lit "c") [mkField (lit "y") TUuid (Some ForeignKey)]).
    + split; [reflexivity|]. split; [cbn; auto|]. intros [|[|j]] e L H; [inversion L|apply Nat.lt_irrefl in L; contradiction|destruct j; discriminate].
    + split; [eexists; split; reflexivity|]. intros [|k] f L H; [inversion L|destruct k; discriminate].
Qed.
(** The path data of that connection. *)
Example C69_example_path :
  match render_module shop with
  | Okay svg => map (fun n => filter (fun kv => str_eqb (fst kv) (lit "d")) (svg_attrs n)) (elements "path" svg) =
                [[(lit "d", lit "M350 102.5 L390 102.5 L430 102.5")]]
  | _ => False
  end.
Proof. vm_compute. reflexivity. Qed.
(** A path with corners. *)
Example C69_example_corners :
  match render_module field_web with
  | Okay svg => nth_error (map (fun n => filter (fun kv => str_eqb (fst kv) (lit "d")) (svg_attrs n)) (elements "path" svg)) 0 =
                Some [(lit "d", lit "M350 137.5 L384 137.5 Q390 137.5 390 143.5 L390 195 L390 287.5 L390 310 L390 351.5 Q390 357.5 384 357.5 L350 357.5")]
  | _ => False
  end.
Proof. vm_compute. reflexivity. Qed.

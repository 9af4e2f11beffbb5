(** The program as a whole, from the bytes of a grammatical source to the document. *)
From Coq Require Import String List Arith NArith ZArith.
From Verif Require Import Base Chumsky Mir Erd Parser Svg Render Cli Diag Report Utf8 Program
  SpecLex SpecGrammar SpecMir SpecLayout SpecRender SpecPicture SpecLink SpecCrash SpecXml SpecUtf8 SpecProgram
  ParseFacts LinkFacts XmlFacts Utf8Facts ReportFacts ProgramFacts TableFacts CalmFacts.
Import ListNotations.

Lemma no_reports order src m : parse src = Ret (mkParse (Some m) [] []) -> forall rs, reports_of order src = Ret rs -> rs = [].
Proof.
  intros P rs R. pose proof (reports_counted order (fun s => s) src rs R) as L. unfold main in L. rewrite P in L. cbn [pr_ast pr_lex_errs pr_parse_errs length] in L.
  destruct (render_module m); destruct rs; try discriminate L; reflexivity.
Qed.

Theorem sound_sources_drawn order w bs src toks rest ts us m : input w (Some bs) -> utf8 src bs ->
  reads 0 src toks rest -> barren rest -> map fst toks = ts ++ us -> g_module ts m ->
  fits (table_rows m) -> (forall r, In (ERel r) (m_entries m) -> fields_joined r) -> names_are readable m ->
  exists bytes out x svg ls, program order escaped w = mkProcess bytes [] Success /\ utf8 out bytes /\
    element out x /\ shows x svg /\
    tables_at (fun i => 2 * table_left i)%Z (fun i => 2 * table_top (table_rows m) i)%Z (definitions (m_entries m)) svg /\
    links [] (m_entries m) ls /\ connected (table_rows m) ls svg.
Proof.
  intros I U R B T G F J N. pose proof (parse_complete src toks rest ts us m R B T G) as P.
  destruct (fields_source escaped src _ m P eq_refl F J) as (svg & Rm & _ & E).
  destruct (module_links m svg F Rm) as (ls & L & _ & C).
  destruct (program_runs order escaped w bs src I U escaped_scalars) as (Rp & Uo & En). rewrite E in En.
  destruct (proj1 (program_reads_back src _ m P eq_refl) N E) as (svg' & x & Rm' & El & Sh).
  rewrite Rm in Rm'. injection Rm' as <-.
  exists (p_stdout (program order escaped w)), (stdout (main escaped src)), x, svg, ls.
  split; [|split; [exact Uo|split; [exact El|split; [exact Sh|split; [now apply module_tables|auto]]]]].
  pose proof (no_reports order src m P _ Rp) as Q. destruct (program order escaped w) as [o rp en]. cbn in *. congruence.
Qed.

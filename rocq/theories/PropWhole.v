(** The program from the bytes of a grammatical source to the picture: C96. *)
From Coq Require Import String List Arith NArith ZArith Bool.
From Verif Require Import Base Chumsky Mir Erd Parser Svg Render Cli Diag Report Utf8 Program
  SpecLex SpecGrammar SpecMir SpecLayout SpecRender SpecPicture SpecLink SpecCrash SpecXml SpecUtf8 SpecProgram LexFacts ParseFacts Utf8Facts WholeFacts.
Import ListNotations.

(** C96: if the input is the UTF-8 encoding of a text whose tokens begin with a module of
    the grammar, the diagram is within the exact range, its relations join different
    fields and its names can be written in XML, then the program succeeds without a
    report, and its output is the UTF-8 encoding of an XML document that shows a picture
    with every table in its place and a connection for every relation that refers to
    something. *)
Theorem C96_sound_sources_are_drawn :
  forall order w bs src toks rest ts us m, input w (Some bs) -> utf8 src bs ->
  reads 0 src toks rest -> barren rest -> map fst toks = ts ++ us -> g_module ts m ->
  fits (table_rows m) -> (forall r, In (ERel r) (m_entries m) -> fields_joined r) -> names_are readable m ->
  exists bytes out x svg ls, program order escaped w = mkProcess bytes [] Success /\ utf8 out bytes /\
    element out x /\ shows x svg /\
    tables_at (fun i => 2 * table_left i)%Z (fun i => 2 * table_top (table_rows m) i)%Z (definitions (m_entries m)) svg /\
    links [] (m_entries m) ls /\ connected (table_rows m) ls svg.
Proof. exact sound_sources_drawn. Qed.
Print Assumptions C96_sound_sources_are_drawn.

(** A shop with customers and orders, read from the standard input. *)
Definition shop_text : str :=
  lit "erd shop { users { id int PK; name text }; orders { id uuid; `user id` int FK }; orders.`user id` o--o users.id }".
Definition shop_world : world := mkWorld [Some (lit "seiren")] (fun _ => None) (Some shop_text).
Definition shop_module : module :=
  mkModule (Some (lit "shop"))
    [EDef (mkEntity (lit "users") [mkField (lit "id") TInt (Some PrimaryKey); mkField (lit "name") TText None]);
     EDef (mkEntity (lit "orders") [mkField (lit "id") TUuid None; mkField (lit "user id") TInt (Some ForeignKey)]);
     ERel (mkRelation (PField (lit "orders") (lit "user id")) (PField (lit "users") (lit "id")))].
Example C96_example :
  input shop_world (Some shop_text) /\ utf8 shop_text shop_text /\
  (exists toks rest ts us, reads 0 shop_text toks rest /\ barren rest /\ map fst toks = ts ++ us /\ g_module ts shop_module) /\
  fits (table_rows shop_module) /\ (forall r, In (ERel r) (m_entries shop_module) -> fields_joined r) /\ names_are readable shop_module.
Proof.
  split; [exact (input_stdin shop_world (le_n 1))|]. split; [apply from_utf8_spec; vm_compute; reflexivity|].
  split.
  { assert (P : parse shop_text = Ret (mkParse (Some shop_module) [] [])) by (vm_compute; reflexivity).
    destruct (parse_sound shop_text _ shop_module P eq_refl) as (toks & ts & us & T & M & G).
    apply tokenizer_reads in T as (rest & R & B). exists toks, rest, ts, us. auto. }
  split; [unfold fits; vm_compute; discriminate|]. split.
  - intros r [Q|[Q|[Q|[]]]]; try discriminate Q. injection Q as <-.
    exists (lit "orders"), (lit "user id"), (lit "users"), (lit "id"). split; [reflexivity|]. split; [reflexivity|discriminate].
  - assert (A : forall c, N.leb 32 c = true -> N.leb c 126 = true -> xml_char c).
    { intros c L U. apply N.leb_le in L, U. right; right; right; left. split; [exact L|].
      apply (N.le_trans _ 126); [exact U|discriminate]. }
    assert (S : forall s, forallb (fun c => N.leb 32 c && N.leb c 126) s = true -> readable s).
    { intros s H. apply Forall_forall. intros c I. rewrite forallb_forall in H. specialize (H c I).
      apply andb_true_iff in H as [L U]. auto. }
    intros e [<-|[<-|[]]]; (split; [now apply S|]); intros f [<-|[<-|[]]]; now apply S.
Qed.

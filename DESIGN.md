# Formal model of seiren

The model is an executable Rocq (Coq 8.16.1) transcription of the whole program:
bytes -> source text -> tokens -> module -> document -> layout -> routing -> SVG text.
It reproduces the three golden SVG files of `/repo/example` character by character
(`Golden.v`) and passes the unit tests of parser.rs, geometry.rs and color.rs (`Unit.v`).

## Representation

* `f32` is IEEE binary32 with rounding: `spec_float` of the standard library at
  precision 24 / exponent 128 (`F32.v`). No idealisation to reals or integers. Proofs
  about rounding go through Flocq, which brings the axioms of the standard library's
  real numbers; they are listed per theorem.
* A computation that may abort returns `res A`: a value or `Panic p`, one constructor of
  `panic` per panic site of the source (`Base.v`). The constructor `POutOfFuel` belongs to
  the model; theorems exclude it.
* Strings are lists of Unicode scalar values. `HashMap`s are association lists (newest
  binding first); no iteration over a `HashMap` occurs in the source.
* petgraph graphs are node and edge vectors; nothing is ever removed.

## Files

| file | models |
| --- | --- |
| Base.v, F32.v | common vocabulary, f32 |
| Color.v, Geometry.v | src/color.rs, src/geometry.rs |
| Mir.v, Erd.v | src/mir.rs, src/erd.rs (including Display and into_mir) |
| Chumsky.v, Parser.v | the combinators used, src/parser.rs |
| Heap.v, Route.v, Layout.v | std BinaryHeap, RouteGraph + petgraph astar, src/layout.rs |
| Diag.v, Report.v | the same parsers with chumsky's error values; reports of src/main.rs |
| Svg.v, Render.v, Cli.v | svg crate serialisation, src/renderer.rs, src/main.rs, src/evcxr.rs |
| Utf8.v, Program.v | std UTF-8 validation and encoding; src/main.rs from the command line on |

Specifications live in `Spec*.v` (independent of the model's helper functions), lemmas in
`*Facts.v`, the property theorems in `Prop*.v` (closed by `exact`, with
`Print Assumptions`). `Golden.v`, `Unit.v` and the `Example`s are tests, not proofs.

## Trusted base

* Coq's kernel (including the `vm_compute` reduction machine).
* Axioms, as printed by `Print Assumptions` beneath each theorem: none for most theorems;
  for theorems about f32 rounding the axioms of the standard library's classical reals
  (`ClassicalDedekindReals.sig_forall_dec`, `ClassicalDedekindReals.sig_not_dec`,
  `FunctionalExtensionality.functional_extensionality_dep`) and, where Flocq uses it,
  `Classical_Prop.classic`. No other axiom.
* The transcription of /repo into the model (every definition cites its lines), and the
  transcription of the used behaviour of the dependencies chumsky 0.8, petgraph 0.6,
  svg 0.13, std. These crates are not in the sandbox; they were transcribed from memory of
  their documented behaviour and checked against the golden files only.

### Modelled

All of parser.rs, erd.rs, mir.rs, layout.rs, renderer.rs, color.rs, evcxr.rs; geometry.rs
except the trait-derived boilerplate; main.rs from the command line and the bytes read on.

### Not modelled

* The file system and the standard streams themselves (Program.v takes the bytes of each
  file as given and lets no write fail); colours of the error reports and the drawing of
  their excerpts (ariadne). `main` (Cli.v) keeps the number of reports only;
  their contents are in Report.v (C77 relates the two).
* The traversal order of the hash set of expected items is a parameter. In Parser.v errors are
  bare values; Diag.v has the error values of chumsky (`Located`, `Simple`), transcribed from
  memory of chumsky 0.8: furthest failure wins, equal failures merge their expected sets.
* Whether svg 0.13 escapes text nodes: the serialiser takes the text formatter as a
  parameter, theorems hold for every formatter.
* Capacity, memory exhaustion, stack overflow. `usize` is unbounded `nat`; theorems that
  need a bound state it.
* Release-profile wrap-around: u32 overflow of costs is an abort, as in a debug build.
* `f32::max/min` on zeros of different sign (unspecified in Rust): the receiver is kept.
* Builder `unwrap()`s of derive_builder (cannot fail: every field has a default).

## Properties

For each property: what is modelled and how it is proved.

* C01 (no abort in parsing): progress lemmas for each combinator use; every item parser of a
  `repeated` consumes input.
* C02: case analysis on `parse_recovery`; the token-level parser never emits secondary errors.
* C03: independent lexical specification `lexes : str -> list token -> Prop`; induction on it.
* C04: inversion of the tokenizer run: soundness against the same specification plus a
  "no token starts here" tail.
* C05, C06: inductive grammar `Mod : list token -> module -> Prop` written from the EBNF comment;
  soundness and completeness of the parser for it, unambiguity as corollary.
* C07: a relation end without dot is rejected for all names; witness for the documented text.
* C08: the printed form lexes (C03) to a token list that the grammar derives (C06).
* C09: witnesses evaluated.
* C10: explicit quoting function; induction over the string.
* C11: case analysis on digits; surrogate range.
* C12: corollary of C06 with arbitrary continuation; tail part from the tokenizer.
* C13: on the grammar: derivations are closed under exchanging separator runs.
* C14, C15: invariants of the tokenizer loop.
* C16-C21: invariant of `add_entries`; specification `resolve`/`tables_of` written on the module.
* C22, C25-C30: loop invariants of `place_nodes`/`place_terminal_ports` on documents that satisfy
  the tree specification of C18.
* C23, C24, C26: exactness of f32 on half-integers (Flocq bridge); unbounded non-overlap by
  monotonicity of rounding.
* C31-C34: invariants of the route graph operations.
* C35-C37: Dijkstra invariant over the exact heap; heap correctness by permutation + heap order.
* C38, C39: composition of C33, C37.
* C40-C43: the document of a module is a grid in exact half-integers (`grid_doc`, LatticeFacts.v);
  places of junctions and ports, no conflicts (ConnectFacts.v); free lines are connected, so every
  port reaches a corridor and the line above all tables at bounded cost (HubFacts.v); all searches
  and the layout return (DrawFacts.v).
* C44, C45: witnesses evaluated; for self relations a general theorem.
* C46-C53: direct; f32 facts via the half-integer bridge.
* C54-C59: induction over the rendering folds.
* C61: the same, with the overlay specified element by element (SpecOverlay.v, OverlayFacts.v).
* C60: the digit search of `show_f32` on integers, translated to reals; Flocq's rounding to nearest
  even on the printed decimal (ShowFacts.v). Minimality: the decimals that read back are those of the
  interval, and the search misses none of a given power of ten (ShortFacts.v).
* C62-C64: composition.
* C66: the closed form of the document (C17); colours compared with printed CSS values.
* C67: induction over the tree being printed.
* C65: a walk that turns around is not cheapest. Kinds of nodes of the graph when all ends are rows
  of fields (OrderFacts.v, RowFacts.v); which edges lie on a line (LineFacts.v) and in a column
  (MidFacts.v, FarFacts.v); a turn on each kind of line leaves a cheaper walk between ports of the
  same rows (TurnFacts.v), which contradicts C37; with C41 and C54 the drawing succeeds (CalmFacts.v).
  The restriction to relations between different fields is needed: C45 has counterexamples.
* C68: the closed forms of the picture (RenderFacts.v) and of the placed document (PlaceFacts.v);
  exact coordinates (C23, C25) and exact printing (C60) (TableFacts.v).
* C69: places (table and row numbers) against the resolution of C19; ports of C28; cheapest walks of
  C37 start and end there; path data in integers through C57 and C60 (LinkFacts.v).
* C70: neighbouring nodes of the route graph of a field document are at least 12.5 apart
  (SmoothFacts.v), the corners take 12; with table ports 5 is possible (witness `kinked`).
* C71: grammar of XML elements (SpecXml.v) shown unambiguous by prefix arguments; every element the
  renderer emits has a name, sorted attributes of harmless characters, and texts only as sole
  content; induction over the printed tree (XmlFacts.v). No statement about CDATA, comments or
  normalisation of line ends, which a reader would apply but the output does not use (except a
  carriage return inside a name).
* C72: the tokens of a text do not depend on the gaps (induction over `reads`, SourceFacts.v), the
  parser sees only their kinds, and C13 covers the separators. Texts with lexical errors are not
  covered.
* C73: layout commutes with erasing texts; the two translations build documents that differ only in
  texts because every lookup of a path succeeds or fails alike (SpecRename.v, RenameFacts.v).
* C74: the closed forms of C25 and C68 for a prefix of the list of definitions (SpecStable.v,
  StableFacts.v); needs no bound on the heights since the same roundings happen in both runs.
* C75: a finite automaton accepts exactly the beginnings of modules (ViableFacts.v, against
  SpecGrammar.v); the furthest error of the combinators lies where the automaton stops
  (SyntaxFacts.v: not further; FeelFacts.v: each allowed token is either consumed or expected).
* C76: the parsers with error values simulate those without (DiagFacts.v); analysis of the six
  alternatives for a token (LexErrFacts.v); faults against the spellings of tokens (FaultFacts.v).
  Characters that belong to a class (letters, digits, contents of names) are accepted but not
  reported as expected, as in the program.
* C77: composition with the wording of main.rs (ReportFacts.v).
* C78: the decoder against RFC 3629 (SpecUtf8.v, Utf8Facts.v); every character of a name and hence of
  the output is a scalar value, so the output can be encoded; composition (ProgramFacts.v).
* C79: quotients below 1 are rounded by at most 2^-25 and two different ones with denominators m, n
  are at least 1/(m n) apart, so clipping decides correctly while m n < 2^24; beyond that the error is
  less than half a unit (ClipFacts.v). The points returned are off by the rounding of the quotient, of
  the product and of the sum, a quarter of a unit each (PieceFacts.v).
* C80: the analysis of turns (C65) for ends that are rows or whole tables (RowFacts.v to CalmFacts.v);
  only a turn between the vertical ports of both ends needs a condition, which two rows meet
  (EndFacts.v).
* C81: ColumnFacts.v shows that in a column through the middle of tables no edge passes over a table that is an end,
  unless the last row of some table is an end too; so a walk between two tables of a column that turns is dearer than
  the straight one. EndFacts.v adds when the ends share a port (then the cheapest path is one point, since all edges cost
  something) and the equivalence. Modules with relations to last rows are covered by C99; `web` of C80 shows that some fail.
* C82: a relation between known places makes no new node and no new port, so the route graph is the same
  and only one search is added (RepeatFacts.v); the costs of a walk and of its reversal are equal, so
  both searches find the same cost. Costs are counted as the code does, in whole units per step.
* C83: no node lies inside a table, and the nodes above or below a table's inside are in its middle; with the straight
  edges of C38 this leaves only whole crossings (ThroughFacts.v). Horizontal edges over an outer column exist only from the gap after the first
  column to the right margin, and a walk that uses one is dearer than one that stops in the gap before the last column (MiddleFacts.v). A cheapest walk repeats no node since edges cost something.
* C84: a path between fields of neighbouring columns that leaves the gap costs at least a whole column's width more than the one
  along the gap; truncation to whole pixels gives back at most half a pixel for each piece, which is why the statement is limited to tables
  fewer than ten rows of tables apart (the path along the gap then has few enough pieces). Within the gap the edges between the sorted junctions
  leave only the monotone walk (GapFacts.v). That there has to be a limit is proved for a diagram of 401 rows of equal tables with one relation
  at each table of the last column: along the gap beside it every row of tables counts 184 instead of 185, which makes up for the way there (DriftFacts.v).
* C86: as C84; in addition a walk from the lower side of a last row either leaves the column, which is too dear, or ends at the lower side of the
  other last row, and then the corridor is cheaper by the truncation (GapFacts.v). With 801 rows of tables the limit is needed (DriftFacts.v).
* C85: by cases on which styles are present; the attribute list of a text is computed once for all texts (TextFacts.v).
* C87: the steps of the renderer are compared one by one on two documents that look alike; none of them reads a port, a flag or, unless it fails,
  the ends of an edge (LookFacts.v).
* C88: a walk that leaves a corridor and returns has gone at least 380 to the side and back, except into a row's side, which is a dead end
  (C83: no point twice); truncation gives back at most half a pixel for each level at a whole number of pixels, and there are at most eleven
  of these for each row of tables (GapFacts.v), so the way along the corridor is cheaper (OnceFacts.v). The limit is needed: in the diagram
  of C86 with 801 rows every way that keeps to the first column and the gap beside it is dearer than one by the next gap, and no step crosses
  the first gap without stopping in it, so the line is in this gap before and after (WanderFacts.v).
* C89: the middle lines of the outer columns only belong to the graph if some end has a lower or upper port there. Without them, a walk
  through an outermost corridor can be cut short at the inner corridor beside the same column, which has a node at the same height; this saves
  760 halves, more than the roundings of 34 rows of tables (OuterFacts.v). With C88, the walk is then in three stages. With such a port the
  claim fails; the witness is three tables side by side (PropOuter.v).
* C90: the ports of the ends, and so the places of the nodes, are determined by the ends; every place of the smaller graph is one of the
  larger. A piece of the path that enters no table connects its two places in the larger graph too, perhaps over nodes in between, at no higher
  cost, because truncating the parts gives no more than truncating the whole (MoreFacts.v). An edge through a table exists only if the first node
  of the list in that direction is hidden, which is why the order of the relations can matter for the others; the witnesses are computed.
* C91: graphs with the same places can differ only in edges through tables. Horizontal ones run only from the corridor at 780 to those at 1540
  and 2300, and whether they are there depends on the ends alone: on such a line the junctions at 780 and 2300 stand before those at 20 and 1540
  in the list, for every order of the relations (LineFacts.v, FieldFacts.v). Vertical ones run along the middle of a column. A walk that comes
  into the column from beside it and passes a table there can pass the table in the corridor instead at the same cost; the invariant of
  FieldFacts.v says so for every prefix of a walk. A walk that stays in the column from one lower port to another costs at least as much as the
  way between the side ports. Upper ports, which only whole tables have, break this last step.
* C92: every table adds four junctions, every relation at most eight ports with at most 4t junctions each, and there are at most four edges for
  each node. For the linear bound, the nodes of a graph within the exact range are at different places, and all places are
  in a list that depends on the tables only (SizeFacts.v). The steps of a search are bounded by the number of edges, as in the proof of its termination.
* C93: all nodes of the graph are at ports and at known distances from them; the ordinates of horizontal pieces are those of the middles of
  rows, or 5, 40 and so on away from tables (the classification of nodes in RowFacts.v), and remainders modulo the row height do the rest
  (BorderFacts.v). C94 is the same for ports alone.
* C95 reads the module back from the drawn document (FaithFacts.v). The tables come from
  the groups of C04 and C68, whose texts and attributes denote at most one table. The
  relations come from the circles of C69: a circle's centre is the middle of a side of
  the place it belongs to, and two places share such a point only if they touch. From
  bytes to documents it uses C71, that the output is read in one way.
* `C25_large_tables_refuted`, `C65_large_tables_refuted`: the closed form of the positions
  (PlaceFacts.v) for one table with as many rows as needed. The number of rows is never
  computed in unary; only its binary value enters the arithmetic (RangeFacts.v). That two
  places with a common port cannot be joined holds without any limit.
* C96 joins the theorems about the stages: C06, C65, C68, C69, C71 and C78 (WholeFacts.v).
* C97 looks at the ink instead of the elements: the strokes of the lines as sets of places, with rounded corners and
  ends (SpecInk.v). The widths of pen and circles play no part, since equal strokes have equal outlines (InkFacts.v).
* C98 follows from the shapes in C84 and C86, whose inner points are at least 25 halves from the ends (BriefFacts.v).
* C99: the condition in C80 concerns only two ends with ports above or below in the same column; the argument of C81
  about a column needs only that no last row of this column is an end (StackFacts.v).
* C100: horizontal edges at the height of an end are described by `odd_edge` (LineFacts.v), and C83 excludes the outer
  columns; a side has only one neighbour, so that a path without repetitions visits it only at its ends (CircleFacts.v).
* C101: an edge over a table that is an end is excluded by the order of nodes and the choice of neighbours (ColumnFacts.v,
  `no_cross`, from C81); the top of such a table has one neighbour, the junction 40 above it (CrownFacts.v).
* C102 counts the turns in the shapes of C84, C86 and C88: a line goes through its corridors once and in order, and can
  change corridors only along one height or, through a middle line, along two (BendFacts.v).
* C103: the ink of a bent line (C97) depends only on its ends and its corridor, which C84 and C86 fix up to the side of
  the column (SideFacts.v). Every node left of the first column has one opposite it on the right, so a way on the right
  costs no more, and the right sides are the first pair of ports (RightFacts.v, with the rule for ties added to C37 in
  FirstFacts.v).
* C104: what `place_nodes` writes depends only on kinds and children, and the last write to a node counts (AgainFacts.v).
  All nodes, ports and edges that a second drawing adds are known to the graph (lemmas of C82), so the paths are the same.
* C105: every way that does not use the facing sides is at least 460 wide and, from an upper or lower side, 80 higher (in
  halves), so no bound on rounding is needed (NearFacts.v).
* C106: the heights on the middle line of a column are all even, so ways along it cost exactly their height; a way that
  leaves it is 600 wider (in halves), and rounding gains less than 45 over two rows of tables (FallFacts.v).
* C107: nothing can be seen from the line over the lower table, so it is joined to the place under that table that is
  listed first; the condition on its neighbours to the left makes this the nearest one. The resulting way, up past the
  foot of the table, is shorter by 25 (in halves) than any way along the sides, rounding included (HaltFacts.v).
* C108: the search for neighbours is described candidate by candidate in C41 (ConnectFacts.v); by induction on the list of
  nodes its result is the pick of SpecSight.v, for any numbers that are not NaN (SightFacts.v). No bound on the size of
  the diagram is needed, except for the clause on the direction upward, which needs exact coordinates (UpwardFacts.v).

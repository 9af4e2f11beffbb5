{"id": "C01", "title": "Parsing never aborts", "statement": "parse(src) terminates with a result for every text: no combinator loop runs forever or aborts for lack of progress, whatever the input.", "quantifier": "every source text (any sequence of Unicode scalar values, any length)", "why_tests_cant": "tests run a handful of inputs; the parser library aborts the process when a repeated parser consumes nothing, and only an argument over all inputs excludes that", "anchors": ["src/parser.rs: parse, tokenizer, erd_module_parser"]}
{"id": "C02", "title": "Either a module or exactly one syntax error", "statement": "parse(src) yields a module together with an empty list of syntax errors, or no module together with exactly one syntax error; tokenizer errors never prevent a module from being produced.", "quantifier": "every source text", "why_tests_cant": "an exclusive-or over all texts, including broken ones", "anchors": ["src/parser.rs: parse"]}
{"id": "C03", "title": "The tokenizer follows the lexical rules", "statement": "For a text that is a sequence of lexemes (edge, keyword, identifier, back-quoted identifier, one of {};. , newline) separated by blanks and // comments, where each lexeme is the longest possible one, the tokenizer returns exactly these tokens, reports nothing, and consumes the whole text.", "quantifier": "every token sequence and every choice of blanks and comments between the tokens", "why_tests_cant": "the interplay of greedy repetition, ordered choice and recovery must be right for all adjacent lexemes", "anchors": ["src/parser.rs: tokenizer"]}
{"id": "C04", "title": "Only well-lexed texts are accepted without complaint", "statement": "If tokenizing reports no error then the text splits into the returned tokens, separated by blanks and comments only, up to a tail in which no token can be found; each token has the source characters at its span as its spelling.", "quantifier": "every source text", "why_tests_cant": "converse of C03: needs an argument over all outputs of the tokenizer", "anchors": ["src/parser.rs: tokenizer"]}
{"id": "C05", "title": "Accepted modules obey the grammar", "statement": "If parse returns a module, the token stream begins with a phrase of the documented grammar (with the dot of a relation end mandatory) whose meaning is exactly that module: same name, same entries in the same order, same fields, types and keys.", "quantifier": "every token sequence", "why_tests_cant": "soundness over all inputs; tests compare a few outputs", "anchors": ["src/parser.rs: erd_module_parser"]}
{"id": "C06", "title": "Every grammatical module is accepted", "statement": "Every phrase of that grammar is parsed into the module it denotes, without errors, no matter which tokens follow it; hence a token sequence denotes at most one module.", "quantifier": "every derivation of the grammar (any number of entries, fields, separators) and every continuation", "why_tests_cant": "completeness and unambiguity quantify over all derivations", "anchors": ["src/parser.rs: erd_module_parser"]}
{"id": "C07", "title": "The documented grammar and the parser differ on relation ends", "statement": "The documentation allows 'users o--o posts' (a relation end without dot); the parser rejects every relation whose left end lacks the dot, and accepts 'users.' instead.", "quantifier": "all pairs of entity names", "why_tests_cant": "a test shows one rejected input, not that all such inputs are rejected", "anchors": ["src/parser.rs: EBNF comment, erd_module_parser (entity)"]}
{"id": "C08", "title": "Printing then parsing gives the module back", "statement": "For every module whose names are plain identifiers other than the keywords and whose relation ends name a field, parse(module.to_string()) returns an equal module and no errors.", "quantifier": "all modules over plain identifiers (any number of entities, fields, relations)", "why_tests_cant": "round trip over an infinite set", "anchors": ["src/erd.rs: Display for Module, EntityDefinition, EntityField, EntityPath, EntityRelation", "src/parser.rs: parse"]}
{"id": "C09", "title": "Printing does not quote: the round trip fails otherwise", "statement": "There are modules obtained from parse whose printed form does not parse, or parses to a different module: names that are keywords or contain special characters, and relation ends that name an entity.", "quantifier": "existence, one witness per kind", "why_tests_cant": "existence of a counterexample, kept as a checked witness", "anchors": ["src/erd.rs: Display for Module, EntityPath"]}
{"id": "C10", "title": "Every name can be written in back quotes", "statement": "For every string s there is a back-quoted spelling that the tokenizer reads as the identifier s, without errors; in particular keywords can be used as names.", "quantifier": "all strings", "why_tests_cant": "quantifies over all strings, including control characters, back quotes and backslashes", "anchors": ["src/parser.rs: tokenizer (escape, quoted_ident)"]}
{"id": "C11", "title": "Unicode escapes", "statement": "A back-quoted name whose only content is \\uXXXX (four hex digits, either case) is the identifier consisting of that code point; when XXXX is a surrogate the identifier is U+FFFD and exactly one error is reported at the digits.", "quantifier": "all 4-digit hexadecimal escapes", "why_tests_cant": "65536 escapes times letter case; validity boundary of surrogates", "anchors": ["src/parser.rs: tokenizer (escape)"]}
{"id": "C12", "title": "Input after the closing brace is ignored", "statement": "If src parses to a module without lexical errors, it can be cut after a closing brace so that whatever is written there instead leaves the module unchanged and adds no syntax error; lexical errors are added only if what is written cannot be read by itself without error, so a tail without tokens is ignored silently. In particular any text can be appended. After lexical errors this fails: appended text can close a back quote that was skipped before.", "quantifier": "all sources and all continuations; the failure is a witness", "why_tests_cant": "statement over all continuations", "anchors": ["src/parser.rs: parse, erd_module_parser"]}
{"id": "C13", "title": "Statement separators are interchangeable", "statement": "Replacing any separator token (newline or ';') by the other, or a run of separators by any other non-empty run, does not change the parsed module.", "quantifier": "all token sequences", "why_tests_cant": "all positions of all programs", "anchors": ["src/parser.rs: erd_module_parser (separator, pad)"]}
{"id": "C14", "title": "Token spans", "statement": "Spans of tokens are non-empty, lie within the text, are strictly ordered and do not overlap; error positions lie within the text.", "quantifier": "every source text", "why_tests_cant": "invariant over all runs; reports index the text with these spans", "anchors": ["src/parser.rs: tokenizer"]}
{"id": "C15", "title": "Recovery skips only what cannot start a token", "statement": "When the tokenizer reports skipped input at an offset, no token starts at that offset, and the characters skipped up to the next token contain no position at which a token starts.", "quantifier": "every source text", "why_tests_cant": "recovery paths are rarely exercised by tests", "anchors": ["src/parser.rs: tokenizer (recover_with)"]}
{"id": "C16", "title": "Conversion to the document never aborts", "statement": "into_mir terminates normally for every module; all edges it adds join existing nodes.", "quantifier": "all modules (any entries in any order, duplicate names allowed)", "why_tests_cant": "all combinations of definitions and relations", "anchors": ["src/erd.rs: Module::into_mir", "src/mir.rs: Document::add_edge"]}
{"id": "C17", "title": "One table per entity, one row per field, in source order", "statement": "The body of the document has one record per entity definition in source order; its children are a header with the entity name followed by one field per entity field in order, with the field name as title, the type name as subtitle and a PK/FK badge exactly when the field has that key.", "quantifier": "all modules", "why_tests_cant": "all sizes and orders", "anchors": ["src/erd.rs: Module::into_mir"]}
{"id": "C18", "title": "The document is a tree", "statement": "Every node other than the body is the child of exactly one node, occurs once in that list, and every child index exists; records are children of the body, fields children of records.", "quantifier": "all modules", "why_tests_cant": "structural invariant over all modules", "anchors": ["src/erd.rs: Module::into_mir", "src/mir.rs: Document"]}
{"id": "C19", "title": "Edges are the resolvable relations, in order", "statement": "The edges of the document are, in source order, the relations both of whose ends were defined earlier; each end is the node of the most recent earlier definition of that path, and every other relation is dropped without any report.", "quantifier": "all modules", "why_tests_cant": "name resolution over all interleavings of definitions and relations", "anchors": ["src/erd.rs: Module::into_mir"]}
{"id": "C20", "title": "Relations after distinct definitions always resolve", "statement": "If all definitions precede all relations, entity names are pairwise distinct and field names are distinct within each entity, then a relation produces an edge iff both ends are declared, and its ends are the nodes showing these names.", "quantifier": "all such modules", "why_tests_cant": "completeness of name resolution", "anchors": ["src/erd.rs: Module::into_mir"]}
{"id": "C21", "title": "A forward reference loses the relation", "statement": "Moving a relation before a definition it refers to removes its edge although the module is otherwise the same, and nothing is reported.", "quantifier": "existence, plus: all relations that precede the first definition of one of their ends", "why_tests_cant": "a silent loss is not visible in a test that only checks success", "anchors": ["src/erd.rs: Module::into_mir"]}
{"id": "C22", "title": "Every table and row gets a position and a size", "statement": "After place_nodes every record in the body and every field in a record has origin and size; nothing else in the document changes (kinds, children, ports, edges), and running it again changes nothing. The body node itself stays unplaced, contrary to the contract of the trait.", "quantifier": "all documents produced from modules", "why_tests_cant": "all modules; plus frame condition", "anchors": ["src/layout.rs: SimpleLayoutEngine::place_nodes, LayoutEngine"]}
{"id": "C23", "title": "Grid positions", "statement": "The i-th table has x = 50 + 380*(i mod 3), width 300, height 35*(rows), and y = 50 + the sum over earlier grid rows of (tallest table + 80), exactly, as long as the total height is at most 2^23.", "quantifier": "all modules within that height", "why_tests_cant": "arithmetic over all sizes in f32", "anchors": ["src/layout.rs: place_nodes"]}
{"id": "C24", "title": "Tables never overlap", "statement": "Any two different tables are disjoint: either one lies entirely left of the other or entirely above it. This holds for every number of tables and rows that fits in memory, including where f32 rounding sets in; within the exact range the gap is at least 80.", "quantifier": "all modules (no size bound other than usize)", "why_tests_cant": "rounding of accumulated f32 coordinates over unbounded sizes", "anchors": ["src/layout.rs: place_nodes", "src/geometry.rs: Rect"]}
{"id": "C25", "title": "Rows tile their table", "statement": "Row k of a table starts where row k-1 ends, has the table's x and width, row 0 starts at the table's top and the last row ends at the table's bottom (exactly, within the height bound). Beyond the bound rows can overlap.", "quantifier": "all modules within the bound", "why_tests_cant": "all row counts", "anchors": ["src/layout.rs: place_nodes"]}
{"id": "C26", "title": "The view box contains every table with a margin", "statement": "For a module with at least one entity the returned view box is 0,0,1160,H, every table lies inside it with a distance of at least 50 to the right/bottom edges and exactly 50 at left/top of the first.", "quantifier": "all modules with at least one entity, within the bound", "why_tests_cant": "all sizes", "anchors": ["src/layout.rs: place_nodes"]}
{"id": "C27", "title": "The view box of an empty module is negative", "statement": "For a module without entities the view box height is f32::MIN (about -3.4e38), an invalid SVG view box.", "quantifier": "all modules without entity definitions", "why_tests_cant": "edge case fixed by a theorem over all such modules", "anchors": ["src/layout.rs: place_nodes"]}
{"id": "C28", "title": "Terminal ports sit in the middle of the sides", "statement": "After place_terminal_ports a record has four ports (top, right, bottom, left midpoints); a row has left and right ports, the first row also a top port, the last row also a bottom port; each port's orientation points outward from its side.", "quantifier": "all modules, all rows", "why_tests_cant": "all row positions and counts", "anchors": ["src/layout.rs: place_terminal_ports"]}
{"id": "C29", "title": "Port identifiers are unique", "statement": "All terminal ports of a document have pairwise distinct identifiers, and a port's identifier names the node it belongs to.", "quantifier": "all modules", "why_tests_cant": "global uniqueness", "anchors": ["src/mir.rs: NodeData::add_terminal_port", "src/layout.rs: place_terminal_ports"]}
{"id": "C30", "title": "Ports are placed once", "statement": "place_terminal_ports is not idempotent: running it twice doubles the ports of every node; it never changes positions, sizes, children or edges.", "quantifier": "all placed documents", "why_tests_cant": "relation between two runs, all documents", "anchors": ["src/layout.rs: place_terminal_ports"]}
{"id": "C31", "title": "Route nodes have distinct locations", "statement": "Along every sequence of add_node/add_terminal_port calls, route nodes have pairwise different locations; a call aborts exactly when a node with the same location but a different orientation exists, and otherwise returns the node at that location.", "quantifier": "all call sequences with non-NaN coordinates", "why_tests_cant": "all histories", "anchors": ["src/layout.rs: RouteGraph::add_node, add_terminal_port, _add_node"]}
{"id": "C32", "title": "The route graph is simple", "statement": "add_edge never creates a parallel edge; after connecting neighbours the graph has no self loop and no two edges between the same nodes.", "quantifier": "all call sequences; all documents", "why_tests_cant": "all histories", "anchors": ["src/layout.rs: RouteGraph::add_edge, connect_nearest_neighbor_edge_junctions"]}
{"id": "C33", "title": "Route edges are horizontal or vertical and leave ports outward", "statement": "Every edge of the route graph joins two nodes that differ in exactly one coordinate, and at a port the edge lies on the side the port's orientation points to.", "quantifier": "all documents", "why_tests_cant": "all graphs produced", "anchors": ["src/layout.rs: connect_nearest_neighbor_edge_junctions"]}
{"id": "C34", "title": "Junctions stay clear of all tables", "statement": "Every junction put in the route graph is outside every table grown by 39 on each side.", "quantifier": "all documents", "why_tests_cant": "all layouts", "anchors": ["src/layout.rs: remove_overlapped_junction_nodes"]}
{"id": "C35", "title": "Shortest path search is correct", "statement": "For any finite undirected graph and non-negative costs without overflow, the search returns a walk from source to target whose cost is the returned one, and no walk is cheaper; it reports no route exactly when there is none; it always terminates.", "quantifier": "all graphs, costs, sources and targets", "why_tests_cant": "optimality over all graphs", "anchors": ["src/layout.rs: compute_shortest_path"]}
{"id": "C36", "title": "The priority queue delivers in order", "statement": "Pushing and popping the binary heap yields, at each pop, an element of least cost among those present, and never loses or invents an element.", "quantifier": "all sequences of pushes and pops", "why_tests_cant": "all histories", "anchors": ["src/layout.rs: compute_shortest_path (BinaryHeap of petgraph astar)"]}
{"id": "C37", "title": "The drawn path is the cheapest over all port pairs", "statement": "The path stored for an edge starts at a port of the source node, ends at a port of the target node, follows route edges, and no walk between any pair of their ports is cheaper; of the equally cheap pairs of ports it joins the first one, in the order of the ports of the source and then of the target.", "quantifier": "all documents for which the search does not abort", "why_tests_cant": "optimality over pairs and walks", "anchors": ["src/layout.rs: find_shortest_edges_path"]}
{"id": "C38", "title": "Edge paths are rectilinear", "statement": "After draw_edge_path every edge has a path; consecutive points differ in exactly one coordinate; the first step leaves the source port outward and the last one enters the target port from outside.", "quantifier": "all modules", "why_tests_cant": "all diagrams", "anchors": ["src/layout.rs: draw_edge_path"]}
{"id": "C39", "title": "draw_edge_path only sets paths", "statement": "draw_edge_path changes nothing but the paths: nodes, edge ends and edge order are kept, and a document without edges is left unchanged.", "quantifier": "all documents", "why_tests_cant": "frame condition", "anchors": ["src/layout.rs: draw_edge_path"]}
{"id": "C40", "title": "No conflicting ports and junctions", "statement": "In the pipeline parse/into_mir/place/ports/draw, placing route nodes never aborts with conflicting orientations.", "quantifier": "all modules within the exact range", "why_tests_cant": "all geometric coincidences over all sizes", "anchors": ["src/layout.rs: RouteGraph::_add_node, draw_edge_path"]}
{"id": "C41", "title": "A route always exists", "statement": "In the pipeline, route search never aborts for lack of a route, and every edge receives a path.", "quantifier": "all modules within the exact range", "why_tests_cant": "connectivity of a constructed graph, for all layouts", "anchors": ["src/layout.rs: connect_nearest_neighbor_edge_junctions, compute_shortest_path, draw_edge_path"]}
{"id": "C42", "title": "Path costs do not overflow", "statement": "In the pipeline the 32-bit cost additions of the search do not overflow as long as the total height and number of route nodes stay within a stated bound.", "quantifier": "all modules within the bound", "why_tests_cant": "bound over all walks", "anchors": ["src/layout.rs: RouteCost, compute_shortest_path"]}
{"id": "C43", "title": "Everything is drawn inside the view box", "statement": "All points of all edge paths lie inside the view box returned by place_nodes.", "quantifier": "all modules within the exact range", "why_tests_cant": "all diagrams", "anchors": ["src/layout.rs: draw_edge_path, place_nodes"]}
{"id": "C44", "title": "Edges may cross tables", "statement": "There are modules whose edge path runs straight through the interior of a table that is neither its source nor its target.", "quantifier": "existence (witness)", "why_tests_cant": "existence; the witness is evaluated by the proof checker", "anchors": ["src/layout.rs: connect_nearest_neighbor_edge_junctions"]}
{"id": "C45", "title": "Some accepted sources crash the program", "statement": "There are sources that parse without any error and whose rendering aborts: a relation from a field to itself, a relation from an entity to its own last field, and a relation between an entity and another entity's field that makes the route turn around.", "quantifier": "existence (witnesses); for self relations: all modules with a resolvable self relation", "why_tests_cant": "crash conditions", "anchors": ["src/renderer.rs: draw_edge_connection", "src/layout.rs: find_shortest_edges_path"]}
{"id": "C46", "title": "contains_point is closed rectangle membership", "statement": "contains_point(p) holds iff min_x <= p.x <= max_x and min_y <= p.y <= max_y in exact arithmetic on half-integral data; contrary to its documentation the right and bottom edges and empty rectangles count.", "quantifier": "all half-integral rectangles and points of magnitude up to 2^22", "why_tests_cant": "boundary cases", "anchors": ["src/geometry.rs: Rect::contains_point"]}
{"id": "C47", "title": "inset_by", "statement": "inset_by(dx,dy) moves the origin by (dx,dy) and shrinks the size by twice that, never below zero; the centre is preserved iff the size is not clamped.", "quantifier": "all half-integral data within range", "why_tests_cant": "clamped cases", "anchors": ["src/geometry.rs: Rect::inset_by"]}
{"id": "C48", "title": "intersects_line on axis-parallel segments", "statement": "For a horizontal segment in either direction and a vertical segment directed downward, not strictly inside the rectangle, intersects_line holds iff the closed segment meets the closed rectangle.", "quantifier": "all half-integral rectangles and axis-parallel segments within range", "why_tests_cant": "floating-point divisions over all inputs", "anchors": ["src/geometry.rs: Rect::intersects_line, intersected_line"]}
{"id": "C49", "title": "intersects_line misses upward segments", "statement": "For a vertical segment directed upward that starts below the rectangle and ends above it, intersects_line is false although the reversed segment is reported; the predicate is not symmetric.", "quantifier": "all upward vertical segments that pass through a rectangle", "why_tests_cant": "a whole family of wrong answers", "anchors": ["src/geometry.rs: Rect::intersects_line, intersected_line"]}
{"id": "C50", "title": "Distances on axis-parallel segments are exact", "statement": "For two half-integral points on a common horizontal or vertical line, distance is the exact absolute difference, and the route cost is its integer part.", "quantifier": "all such points within range", "why_tests_cant": "f32 square and square root over all inputs", "anchors": ["src/geometry.rs: Point::distance", "src/layout.rs: compute_shortest_path"]}
{"id": "C51", "title": "orthogonal_direction", "statement": "For points that differ in one coordinate only, orthogonal_direction is the direction of that difference, and swapping the points gives the opposite direction.", "quantifier": "all pairs of non-NaN points", "why_tests_cant": "all inputs", "anchors": ["src/geometry.rs: Point::orthogonal_direction"]}
{"id": "C52", "title": "Path start and end", "statement": "For a Path built by new and any sequence of move_to/line_to/quad_to, start_point is the starting point and end_point is the target of the last command; neither aborts.", "quantifier": "all command sequences", "why_tests_cant": "all histories", "anchors": ["src/geometry.rs: Path"]}
{"id": "C53", "title": "Colours print as seven distinct characters", "statement": "An RGB colour prints as '#' and six upper-case hexadecimal digits; different colours print differently and the digits read back give the components.", "quantifier": "all 2^24 colours", "why_tests_cant": "all values", "anchors": ["src/color.rs: Display for RGBColor"]}
{"id": "C54", "title": "Rendering fails exactly on missing layout", "statement": "render returns an error iff some record in the body, some field of a record, or some edge lacks its geometry (and no earlier edge aborts); the error names that node, and nothing is written to the writer before success.", "quantifier": "all documents and writers", "why_tests_cant": "all partially laid-out documents", "anchors": ["src/renderer.rs: SVGRenderer::render"]}
{"id": "C55", "title": "Structure of the SVG", "statement": "The rendered document has one background rectangle, one defs element with one clipPath per record, pairwise distinct clip identifiers, and every clip-path reference points to an existing identifier.", "quantifier": "all documents", "why_tests_cant": "all sizes", "anchors": ["src/renderer.rs: SVGRenderer::render"]}
{"id": "C56", "title": "All names appear, in order", "statement": "The text nodes of the SVG of a module are, in order: for each entity its name, then for each field its name, its type name and, if present, its key.", "quantifier": "all modules that render", "why_tests_cant": "all modules", "anchors": ["src/renderer.rs: SVGRenderer::render, draw_text", "src/erd.rs: into_mir"]}
{"id": "C57", "title": "Edges are drawn from end to end", "statement": "For each edge exactly one path element and two circles are emitted, in edge order; the path data starts with M at the first point and ends with L at the last, and the circles are centred there.", "quantifier": "all documents that render", "why_tests_cant": "all paths", "anchors": ["src/renderer.rs: draw_edge_connection"]}
{"id": "C58", "title": "When drawing an edge aborts", "statement": "Drawing an edge aborts iff its path has fewer than two points or some interior point reverses the direction of travel; the abort reports the first such point.", "quantifier": "all paths", "why_tests_cant": "all paths", "anchors": ["src/renderer.rs: draw_edge_connection"]}
{"id": "C59", "title": "User text cannot reach attributes", "statement": "No attribute value of the rendered SVG contains a quote, '<', '>' or '&', whatever the names in the source are; user text occurs in text nodes only.", "quantifier": "all documents", "why_tests_cant": "injection over all names", "anchors": ["src/renderer.rs: SVGRenderer::render"]}
{"id": "C60", "title": "Coordinates are printed exactly", "statement": "A half-integral coordinate prints as its exact decimal, and the printed form of any finite f32 lies within its rounding interval, so reading it back gives the same number. The printed decimal is the shortest that reads back: none is coarser, none has fewer digits, none at the same power of ten is closer; and it has no superfluous zero or point.", "quantifier": "all finite f32 values (exactness: half-integers below 2^23)", "why_tests_cant": "2^32 values", "anchors": ["src/renderer.rs: SVGRenderer::render (formatting of f32)"]}
{"id": "C61", "title": "The debug overlay only adds", "statement": "With the debug graph the SVG consists of the same elements followed by the overlay: a line and an arrow head towards the target for each edge of the route graph, a disc and its number for each node, an orange disc for each path point, and the number of each placed table below its corner, in this order; it never aborts or fails more often than without.", "quantifier": "all documents and graphs", "why_tests_cant": "relation between two runs", "anchors": ["src/renderer.rs: draw_debug_info"]}
{"id": "C62", "title": "The program's exit status ignores syntax errors", "statement": "On a source that does not parse, the program prints nothing on standard output, reports exactly the errors, and still ends with success.", "quantifier": "all sources", "why_tests_cant": "all broken inputs", "anchors": ["src/main.rs: main"]}
{"id": "C63", "title": "Output for every source that yields a module", "statement": "If parsing yields a module the program writes exactly the rendering of that module, even when tokenizer errors were reported; it writes either the whole document or nothing.", "quantifier": "all sources", "why_tests_cant": "composition of all stages", "anchors": ["src/main.rs: main"]}
{"id": "C64", "title": "Notebook output is framed", "statement": "draw_erd/evcxr_display print the SVG between the two marker lines; draw_erd aborts iff render does not succeed.", "quantifier": "all documents", "why_tests_cant": "all documents", "anchors": ["src/evcxr.rs: draw_erd, SVGOutput::evcxr_display"]}
{"id": "C65", "title": "Diagrams of field relations never crash", "statement": "For a module within the exact range whose relations join different fields, the whole pipeline from module to SVG terminates normally. Beyond the range two fields can lie at the same place, and relating them aborts. Without lines there is no limit on the size.", "quantifier": "all such modules", "why_tests_cant": "end-to-end absence of panics over all layouts", "anchors": ["src/layout.rs: draw_edge_path", "src/renderer.rs: render", "src/main.rs: main"]}
{"id": "C66", "title": "Rows are styled by type and key", "statement": "In the document of a module every type name is coloured by a fixed table (int and uuid alike, text, timestamp), every key has the text and background colour of its keyword, titles are white, headers are filled and the rows below them bordered; tables ask for rounded corners.", "quantifier": "all modules", "why_tests_cant": "all rows of all tables", "anchors": ["src/erd.rs: column_type_color, EntityFieldKey::text_color, bg_color, into_mir"]}
{"id": "C67", "title": "Notebook frame closed by a name", "statement": "Every text of the document is printed on a line of its own, so a table or field called EVCXR_END_CONTENT ends the notebook frame inside the SVG.", "quantifier": "all documents containing that text; printers that leave it unescaped", "why_tests_cant": "quantifies over all documents and the unmodelled escaping", "anchors": ["src/evcxr.rs: SVGOutput::evcxr_display"]}
{"id": "C68", "title": "Every table is drawn in its place", "statement": "In the SVG of a module the tables come before the edges, in source order; each consists of a rounded frame, a header background clipped to that frame and its title, and for every field a separating line, the name 12 from the left, the type ending 60 before the right side, and for keys a disc with the keyword in its centre. All coordinates, sizes, colours and fonts are the intended ones, every row is 35 high, and the view box is as wide and high as the diagram.", "quantifier": "all modules up to a height of 2^23, all tables and rows", "why_tests_cant": "exact geometry of every element for all modules; golden files cover three", "anchors": ["src/renderer.rs: SVGRenderer::render, draw_text", "src/erd.rs: into_mir", "src/layout.rs: place_nodes"]}
{"id": "C69", "title": "Every relation is drawn between the places it names", "statement": "In the SVG of a module the relations whose ends are defined earlier are drawn, in order, and no other path is: each as one path element, with rounded corners of radius 6, from the middle of a side of the table or row its start refers to (the latest definition before it) to the middle of a side of the one its end refers to, with a circle at both ends; for relations between fields the program as a whole writes exactly this diagram.", "quantifier": "all modules up to a height of 2^23", "why_tests_cant": "composition of name resolution, layout, routing, drawing and printing", "anchors": ["src/main.rs: main", "src/erd.rs: into_mir", "src/layout.rs: draw_edge_path", "src/renderer.rs: draw_edge_connection"]}
{"id": "C70", "title": "Paths of field relations have no kinks", "statement": "The path drawn for a relation between fields is smooth: the direction of drawing changes only along rounded corners, each entered and left in the direction of the straight lines beside it, and never back; the corners never overlap. For relations between tables this fails.", "quantifier": "all modules up to a height of 2^23 whose relations join different fields; refuted in general by a witness", "why_tests_cant": "a bound on the distance of all neighbouring nodes of the route graph", "anchors": ["src/renderer.rs: draw_edge_connection", "src/layout.rs: edge_junctions"]}
{"id": "C71", "title": "The output is well-formed XML that reads back as the drawing", "statement": "Reading the written text by the productions of XML 1.0 gives, in exactly one way, an svg element in the SVG namespace with the same elements, attributes and texts in the same order as the drawing, provided texts are printed so that they can be read (escaped and of XML characters, or in need of no escaping). Names with control characters are copied to the output, which then is not XML; so are unescaped angle brackets if the serialiser does not escape.", "quantifier": "all documents, texts and formatters; the two failures are witnesses", "why_tests_cant": "output for every name and every drawing; well-formedness is a property of whole texts", "anchors": ["src/renderer.rs: SVGRenderer::render", "src/main.rs: main"]}
{"id": "C72", "title": "The layout of the source text is irrelevant", "statement": "Two texts whose tokens are the same up to the choice of separators in each non-empty run give the same run of the program: same output, same number of reports, same ending. In particular blanks and comments may be inserted anywhere between two tokens. (The texts are ones the tokenizer reads without error.)", "quantifier": "all pairs of texts, all formatters", "why_tests_cant": "all pairs of spellings of all sources, and all positions of all gaps", "anchors": ["src/parser.rs: tokenizer, erd_module_parser", "src/main.rs: main"]}
{"id": "C73", "title": "Renaming changes only the texts", "statement": "Renaming the entities and the fields of a module consistently, so that different entities and different fields of the same entity keep different names, gives the same drawing up to the texts, and fails where the original fails. Renaming that merges names can make the program abort.", "quantifier": "all modules and all renamings; the failure is a witness", "why_tests_cant": "relation between two runs for unboundedly many names; lookups in the renamed module must agree at every step", "anchors": ["src/erd.rs: into_mir", "src/layout.rs: SimpleLayoutEngine", "src/renderer.rs: SVGRenderer::render"]}
{"id": "C74", "title": "Appending to a module leaves the tables where they are", "statement": "If a module defines the entities of another one, in the same order, and maybe more after them, with any relations, then the drawing of the smaller module's tables is contained in the drawing of the larger one, element for element and bit for bit. The lines of the relations may change: one more relation can turn a straight line into a detour.", "quantifier": "all pairs of modules of any size that are drawn; the change of lines is a witness", "why_tests_cant": "relation between two runs; sizes are unbounded and coordinates are rounded beyond 2^24", "anchors": ["src/layout.rs: SimpleLayoutEngine::place_nodes", "src/renderer.rs: SVGRenderer::render"]}
{"id": "C75", "title": "The syntax error lies at the first token that does not fit, and names all that would", "statement": "If no prefix of the tokens is a module, there is exactly one syntax error. Its position is the first one such that the tokens before it begin some module but no module continues with the token there (or the end of the tokens); it reports the token found there; and its set of expected tokens is never empty and contains exactly the tokens, except names, with which some module continues. Otherwise there is no error and the module is returned.", "quantifier": "all token lists", "why_tests_cant": "the grammar is unbounded; the error is merged from all alternatives tried by the combinators", "anchors": ["src/parser.rs: erd_module_parser", "src/parser.rs: parse"]}
{"id": "C76", "title": "Lexical errors lie where the reading of a token broke off", "statement": "Each passage in which no token begins is reported at the character where the first attempt to read it broke off: up to there the text begins some token, with the character there it begins none, and every character reported as expected would let the reading continue; each escape of a surrogate is reported at its four digits. The run with error values returns the same tree and as many errors as the run without them.", "quantifier": "all texts", "why_tests_cant": "arbitrary text; the error is merged from all tokens tried", "anchors": ["src/parser.rs: tokenizer", "src/parser.rs: parse"]}
{"id": "C77", "title": "The reports say what the errors are", "statement": "The program prints one report for each lexical error, in order, and then at most one for the syntax error: its message says whether a token or the end of the input was unexpected and lists every item that would have been accepted, once each; its label marks the place of the fault or the span of the token that does not fit (or one past the end) and names what is there: reserved words and symbols as they are written, names without quotes, punctuation between quotes. The text 'something else' is printed only where a hexadecimal digit is missing. Without lexical errors the marked text is a spelling of the token named; after skipped text it may be longer.", "quantifier": "all texts, all traversal orders of the set of expected items; the last failure is a witness", "why_tests_cant": "wording for every error of every text; hash-set order is unspecified", "anchors": ["src/main.rs: main", "src/parser.rs: Display for Token"]}
{"id": "C78", "title": "From bytes to bytes", "statement": "The program reads the file named by its first argument, or the standard input if there is none. If the bytes are the UTF-8 encoding (RFC 3629) of a text, the reports and the ending are those of that text and the output is the UTF-8 encoding of its drawing; in particular every character of the output can be encoded. If they cannot be read or are not UTF-8, there is an I/O error and no output; if one of the first two arguments is not Unicode (and there are two), a panic and no output. Nothing is printed unless the run succeeds.", "quantifier": "all command lines, all byte sequences, all formatters that keep scalar values", "why_tests_cant": "arbitrary bytes and arguments; validity of UTF-8 for all outputs", "anchors": ["src/main.rs: main"]}
{"id": "C79", "title": "intersects_line on segments in any direction", "statement": "A segment that has a point in common with the rectangle is reported, unless the early exit for segments taken to be inside applies; a reported segment has a point in common with the rectangle enlarged by half a unit on each side, and with the rectangle itself if the box around the segment has an area below 2^22. Beyond that false alarms occur. If the segment does meet the rectangle, the two points that intersected_line returns are within three quarters of a unit, in both directions, of the ends of the part in the rectangle, the left end first, and the common coordinate of a level or upright segment is exact; but the point of entry can lie outside the rectangle.", "quantifier": "all rectangles and segments with half-integer coordinates in a window of 2^23; the failures are witnesses", "why_tests_cant": "all directions; rounding of two independent quotients", "anchors": ["src/geometry.rs: Rect::intersects_line, Rect::intersected_line"]}
{"id": "C80", "title": "Relations between fields never turn around, whatever else is drawn", "statement": "In every module within the exact range, the path of a relation between two different fields has at least two points and contains no reversal, whatever other relations the module has. For relations between two entities this fails: one can turn around although its ends have no side in common, and the drawing panics.", "quantifier": "all modules within the exact range, all relations between different fields in them; the failure is a witness", "why_tests_cant": "depends on the whole routing graph, which every other relation changes", "anchors": ["src/layout.rs: draw_edge_path, connect_nearest_neighbor_edge_junctions, compute_shortest_path", "src/renderer.rs: draw_edge_connection"]}
{"id": "C81", "title": "Which diagrams of entities and inner fields are drawn", "statement": "In every module within the exact range, the path of a relation is a single point exactly if its two ends have the middle of a side in common, which is so exactly if the ends are the same, or one is an entity and the other its own middle or last row; every module that is drawn has no such relation. If moreover no relation of the module ends in the last row of an entity, the module is drawn exactly if it has no such relation, and the only panic possible is the one for a path of a single point.", "quantifier": "all modules within the exact range; for the exact condition, all of them whose relations end in entities or in rows other than the last", "why_tests_cant": "it is a statement about the cheapest paths in all routing graphs, in which the order of nodes decides which edges exist", "anchors": ["src/layout.rs: draw_edge_path, connect_nearest_neighbor_edge_junctions, compute_shortest_path, place_terminal_ports", "src/renderer.rs: draw_edge_connection"]}
{"id": "C82", "title": "Relations between places that are joined already", "statement": "If a relation whose two ends are ends of earlier relations is inserted into a module within the exact range, the layout keeps its view box, all nodes and the paths of all other relations, and gets one path more; a repetition of an earlier relation gets its path, and the picture gets the elements of its line once more and is otherwise unchanged. Relations with the same ends have the same path wherever they stand. Of two relations with exchanged ends the paths are equally long, as the search counts, but they need not be the same points.", "quantifier": "all modules within the exact range, all earlier entries, later entries and relations; same paths: all modules", "why_tests_cant": "tests compare single pictures; that nothing else moves is a statement about two runs on every module, and the search and the nearest ports are chosen anew in each", "anchors": ["src/layout.rs: place_terminal_ports, draw_edge_path, find_shortest_edges_path, compute_shortest_path", "src/renderer.rs: render, draw_edge_connection", "src/mir.rs: add_edge", "src/erd.rs: into_mir"]}
{"id": "C83", "title": "Lines pass straight through tables or not at all", "statement": "In a module within the exact range, a segment of an edge's path that comes strictly inside a table crosses it completely, either vertically along the middle of the table or horizontally from side to side; so no path bends, starts or ends inside a table. Both happen, the second only at tables of the middle column. No path comes to the same point twice.", "quantifier": "all modules within the exact range, all edges, segments and tables", "why_tests_cant": "tests look at single diagrams; that crossed tables are always crossed whole is a statement about all nodes and edges of every route graph", "anchors": ["src/layout.rs: edge_junction_nodes_around_shapes, edge_junction_nodes_from_terminal_port, connect_nearest_neighbor_edge_junctions, compute_shortest_path"]}
{"id": "C84", "title": "Relations between fields in neighbouring columns are drawn in the gap between them", "statement": "In a module within the exact range, the line of a relation between fields of two tables in neighbouring columns that are fewer than ten rows of tables apart leaves the side of the first field's row that faces the other table at half its height, goes in one direction along the middle of the gap between the columns, and enters the facing side of the other field's row at half its height, whatever other relations there are. So it has two bends at most and meets no table. Without a limit on the distance this is not so: in a diagram of 401 rows of tables the next gap can be taken, since every piece of a path is counted in whole pixels rounded down.", "quantifier": "all modules within the exact range, all relations in them between fields of tables in neighbouring columns less than ten grid rows apart", "why_tests_cant": "it is a statement about the cheapest paths in all routing graphs, which every other relation changes; the paths that are not taken cannot be seen in a picture", "anchors": ["src/layout.rs: place_terminal_ports, draw_edge_path, connect_nearest_neighbor_edge_junctions, find_shortest_edges_path, compute_shortest_path"]}
{"id": "C85", "title": "Text elements carry exactly the styles of the text, in the words of CSS", "statement": "For every text span, position and anchor, the element drawn for it has the position and exactly the style attributes that the span has, each once. The values are the CSS words for weights, sizes (in order of size) and named colours, the SVG words for anchors, and lists of font families that end in a generic family of the right kind. Two spans drawn alike are equal in text and all styles.", "quantifier": "all text spans, positions and anchors", "why_tests_cant": "erd.rs makes only a few of the combinations of styles, so no diagram shows the others", "anchors": ["src/mir.rs: FontFamily, FontWeight, FontSize, TextSpan", "src/renderer.rs: draw_text, text_anchor", "src/color.rs: NamedColor, WebColor"]}
{"id": "C86", "title": "Relations between fields of one column are drawn beside the column", "statement": "In a module within the exact range, the line of a relation between two different fields whose tables are in the same column and fewer than ten rows of tables apart leaves one side of the first field's row at half its height, goes in one direction along the corridor on that side of the column, and comes back into the same side of the other row at half its height, whatever other relations there are; it never uses the lower side of a last row. So it has two bends and meets no table. Without a limit on the distance this is not so: in a diagram of 801 rows of tables the line can change over to the next gap and back.", "quantifier": "all modules within the exact range, all relations in them between different fields of tables in one column less than ten grid rows apart", "why_tests_cant": "it is a statement about the cheapest paths in all routing graphs; the ways through the columns cost nearly the same, and roundings could decide", "anchors": ["src/layout.rs: place_terminal_ports, draw_edge_path, connect_nearest_neighbor_edge_junctions, find_shortest_edges_path, compute_shortest_path"]}
{"id": "C87", "title": "What the picture does not depend on", "statement": "Two documents that differ only in the flags for rounded corners, in the ports of their nodes and in the ends of edges that have a path are drawn as the same SVG, with and without the debug overlay. So the flag `rounded` of a record has no effect (corners are always rounded), and placing ports a second time is invisible.", "quantifier": "all pairs of documents, all view boxes, all graphs", "why_tests_cant": "a statement about pairs of arbitrary documents", "anchors": ["src/renderer.rs: SVGRenderer::render", "src/mir.rs: RecordShape::rounded, NodeData::terminal_ports"]}
{"id": "C88", "title": "A line uses each corridor at most once", "statement": "In a module within the exact range with at most 102 entities, the path of every relation, whatever its ends, uses each of the four vertical corridors (left of, between and right of the columns) at most once: the points of the path in a corridor follow each other without interruption and go strictly upwards or strictly downwards. So no line leaves a corridor and comes back to it. Without the limit on the number of entities this is false: in a diagram with 801 rows of tables a line leaves the first gap and comes back to it.", "quantifier": "all modules of up to 102 entities within the exact range, all relations of any kind in them, all four corridors", "why_tests_cant": "it is a statement about the cheapest paths in all routing graphs; distances are truncated on every piece, so a detour is not dearer by itself", "anchors": ["src/layout.rs: draw_edge_path, connect_nearest_neighbor_edge_junctions, find_shortest_edges_path, compute_shortest_path"]}
{"id": "C89", "title": "Lines between the outer columns do not turn back", "statement": "In a module within the exact range with at most 102 entities in which no relation ends in a whole entity or in the last field of an entity of the first or third column, the line of a relation between fields of the two outer columns leaves the side facing the other column at half the height of the row, visits points of the nearer gap, then possibly points on the middle line of the middle column, then points of the farther gap, and enters the facing side of the other row at half its height. So it never goes back horizontally and meets no table outside the middle column. Without the condition this is false: beside a relation from the last field of a table in the left column, the line of another relation can go back under its own table.", "quantifier": "all modules of up to 102 entities within the exact range under the stated condition, all relations in them between fields of the outer columns", "why_tests_cant": "it is a statement about the cheapest paths in all routing graphs; whether the middle lines of the outer columns are part of the graph depends on unrelated relations", "anchors": ["src/layout.rs: place_terminal_ports, draw_edge_path, connect_nearest_neighbor_edge_junctions, find_shortest_edges_path, compute_shortest_path"]}
{"id": "C90", "title": "More relations make no line longer that passes the tables, and their order does not matter to it", "statement": "Take two modules with the same sizes of entities, in the second of which every end of a relation of the first is the end of some relation as well. If a relation of the first module has a line that enters no table, and the second module has a relation between the same two places in either direction, then its line there is at most as long as in the first, as the search counts. So if both modules have the same ends, lines that enter no table are equally long, whatever the order and the directions of the relations and whichever ends are related. For lines through tables neither holds in general: the order of two relations can change the length of a line, and a relation at a table can close the straight way through it.", "quantifier": "all pairs of modules within the exact range with the same numbers of fields, all relations with lines past the tables", "why_tests_cant": "a statement about two runs on arbitrary modules; which edges the routing graph gets depends on the order of its nodes, and tests draw one order", "anchors": ["src/layout.rs: draw_edge_path, edge_junction_nodes_from_terminal_port, connect_nearest_neighbor_edge_junctions, find_shortest_edges_path, compute_shortest_path"]}
{"id": "C91", "title": "The order of the relations never changes the length of a line between two columns", "statement": "Take two modules with the same sizes of entities whose relations have the same set of ends. If both have a relation between the same two columns, in either direction, then its two lines are equally long as the search counts, also if they run through tables, and whatever the order and directions of all the relations and whichever of the ends are related; other relations may end at whole tables. If the second module has further ends, but none of them in a table of the middle column, the line is at most as long there as in the first.", "quantifier": "all pairs of modules within the exact range with the same numbers of fields, all relations between columns", "why_tests_cant": "a statement about two runs on arbitrary modules; where every candidate is hidden the graph takes the first node in the list, so the edges depend on the order of the relations, and tests draw one order", "anchors": ["src/layout.rs: draw_edge_path, edge_junction_nodes_from_terminal_port, connect_nearest_neighbor_edge_junctions, find_shortest_edges_path, compute_shortest_path"]}
{"id": "C92", "title": "The size of the routing graph and the effort of the searches", "statement": "The routing graph of a module with t entities and r drawn relations, of any size, has at most 4t + r(32t + 8) nodes, and at most four edges per node. Within the exact range it has at most 16 nodes per entity and 6 per row, however many relations there are, so it grows linearly with the tables. Every search for a path takes at most 8n + 2 steps for n nodes, and a relation takes at most 16 searches.", "quantifier": "all modules that are laid out, all graphs, all pairs of nodes; for the linear bound all modules within the exact range", "why_tests_cant": "tests measure single inputs; that junctions are not added twice and that edges are not duplicated for any order of relations is a statement about all", "anchors": ["src/layout.rs: RouteGraph::add_edge, draw_edge_path, edge_junction_nodes_around_shapes, edge_junction_nodes_from_terminal_port, remove_overlapped_junction_nodes, connect_nearest_neighbor_edge_junctions, find_shortest_edges_path, compute_shortest_path"]}
{"id": "C93", "title": "Lines keep off the borders of tables and rows", "statement": "In a module within the exact range whose relations all join fields, every horizontal piece of every line stays at least 5 away from the top and the bottom of every row of every table, and every vertical piece at least 40 from the sides of every table. The 5 cannot be improved. With relations of whole tables this is false: the line can lie exactly on the lower border of an unrelated table.", "quantifier": "all modules within the exact range with relations between fields, all lines, all borders", "why_tests_cant": "it relates every piece of every drawn line to every table; a coincidence depends on the sizes of unrelated tables", "anchors": ["src/layout.rs: place_terminal_ports, edge_junction_nodes_from_terminal_port, draw_edge_path, SHAPE_JUNCTION_MARGIN, LINE_HEIGHT"]}
{"id": "C94", "title": "Ends of lines coincide or are clearly apart", "statement": "In a module within the exact range, the end points of any two lines (also of the same line) are the same point or at least 17.5 apart in one direction, so the circles drawn there never overlap partly; if all relations join fields they are at least 35 apart. 17.5 occurs between the end at a whole table and that at one of its fields.", "quantifier": "all modules within the exact range, all pairs of lines and of their ends", "why_tests_cant": "a statement about all pairs of ends in pictures of any size", "anchors": ["src/layout.rs: place_terminal_ports, find_shortest_edges_path", "src/renderer.rs: SVGRenderer::draw_edge_connection"]}
{"id": "C95", "title": "The diagram can be read off the picture", "statement": "If two modules have the same picture, they define the same tables with the same names, fields, types and keys in the same order; within the exact range they also have the same relations (those that refer to nothing aside) in the same order and direction, up to ends that touch, i.e. a table and its own middle or last row. If all relations join fields, the relations are the same without exception. The same holds of two sources for which the program writes the same bytes, for all names that are legal in XML. A table and its middle row as an end can indeed give the same output.", "quantifier": "all pairs of modules of any size with the same picture, all pairs of sources with the same output", "why_tests_cant": "injectivity is a statement about all pairs of inputs", "anchors": ["src/erd.rs: IntoMIR", "src/layout.rs: place_nodes, place_terminal_ports", "src/renderer.rs: SVGRenderer::render", "src/main.rs: main"]}
{"id": "C96", "title": "From the bytes of a grammatical source to the picture", "statement": "If the input is the UTF-8 encoding of a text whose tokens begin with a module of the grammar, the diagram is within the exact range, its relations join different fields and its names can be written in XML, then the program succeeds without any report, and its output is the UTF-8 encoding of an XML document that shows a picture with every table in its place and a connection for every relation that refers to something.", "quantifier": "all inputs, sources and modules of this kind, of any size within the range", "why_tests_cant": "end-to-end correctness over all inputs", "anchors": ["src/main.rs: main", "src/parser.rs: parse", "src/layout.rs: LayoutEngine", "src/renderer.rs: SVGRenderer::render"]}
{"id": "C97", "title": "Which fields a line joins cannot always be seen", "statement": "Two relations between fields in neighbouring columns, fewer than ten rows of tables apart, leave the same ink as the two relations with their partners exchanged, provided both ends on the one side are above both ends on the other: the straight strokes cover the same places, the rounded corners are the same, and so are the ends. In general the lines of two such relations in the same gap lie on each other at all heights which both pass. So two diagrams with the same tables and different relations can look exactly alike.", "quantifier": "all modules of any size within the range, any further relations", "why_tests_cant": "coincidence of lines concerns pairs of pictures, and every point of the plane", "anchors": ["src/layout.rs: draw_edge_path, compute_shortest_path", "src/renderer.rs: draw_edge_connection"]}
{"id": "C98", "title": "Lines beside columns are as short as possible", "statement": "The line between two fields in neighbouring columns, fewer than ten rows of tables apart, is a shortest way (measured along the axes) between any place where a line may end at the one row and any such place at the other, and it is straight if the rows are at the same height and has exactly two rounded corners otherwise. The line between two fields in one column has exactly two rounded corners and is longer than the distance of the rows by exactly 80 units, the way to the corridor and back.", "quantifier": "all modules of any size within the range, any further relations, all competing ways", "why_tests_cant": "minimality over all ways between all ends", "anchors": ["src/layout.rs: draw_edge_path, compute_shortest_path, place_terminal_ports", "src/renderer.rs: draw_edge_connection"]}
{"id": "C99", "title": "Which relations can make the program stop for a turn", "statement": "The path of a relation whose ends have no side in common has a length and never turns around, unless the relation joins a whole table with another table or a last row of the same column and some relation ends in a last row of that column. So a module without such relations is drawn exactly if the ends of all its relations are apart, and if the program stops because of a turn, there is such a relation.", "quantifier": "all modules of any size within the range, relations of any kind", "why_tests_cant": "absence of a panic for a class of inputs that is closed under adding relations", "anchors": ["src/layout.rs: place_terminal_ports, connect_nearest_neighbor_edge_junctions, compute_shortest_path", "src/renderer.rs: draw_edge_connection"]}
{"id": "C100", "title": "Lines keep clear of the circles of other relations", "statement": "A line comes within 12.5 of the left or right side of a row where some relation ends only if the line itself ends there and this is a side of an end of its own relation; so it never touches a circle of another relation at a row. For the sides of whole tables the distance is 5, and a line at exactly this distance touches the outline of the circle. The circles at the top and bottom of a table can be run over by lines of other relations.", "quantifier": "all modules of any size within the range, all pairs of a relation and a line", "why_tests_cant": "a statement about all pairs of lines in all layouts, with sharp distances", "anchors": ["src/layout.rs: connect_nearest_neighbor_edge_junctions, compute_shortest_path, place_terminal_ports", "src/renderer.rs: draw_edge_connection"]}
{"id": "C101", "title": "Lines go round tables that are themselves ends", "statement": "If a table is an end of some relation and no relation ends in a last row of a table of its column, no line of any relation runs down through the table, and a line comes within 17.5 of the middle of its top only if it ends there and the table is an end of its own relation. Without the condition on last rows a line can run through such a table from top to bottom.", "quantifier": "all modules of any size within the range, all pairs of a relation and a line", "why_tests_cant": "a statement about all pairs of lines in all layouts; the condition was found by a failed proof", "anchors": ["src/layout.rs: connect_nearest_neighbor_edge_junctions, compute_shortest_path, place_terminal_ports", "src/renderer.rs: draw_edge_connection"]}
{"id": "C102", "title": "Lines between fields have few corners", "statement": "In a module of at most 102 tables whose relations all join fields, none of them the last one of a table in an outer column, every line has at most six corners; if no relation ends in a last row of any table, it has at most four, and four are needed in some modules. The two tables are fewer than ten rows of tables apart or in the two outer columns.", "quantifier": "all modules of this kind, with tables of any size within the range and any number of relations", "why_tests_cant": "the number of corners is bounded although the number of points of a path is not", "anchors": ["src/layout.rs: draw_edge_path, compute_shortest_path", "src/renderer.rs: draw_edge_connection"]}
{"id": "C103", "title": "What the look of a line depends on", "statement": "The line between two fields of neighbouring columns looks the same in all modules whose tables have the same numbers of rows, whatever else is related and whichever field is named first; so does the line between two fields of the first column, which is always on the right of its tables. In another column it looks the same or is reflected in the middle of the column, and a further relation can bring about the reflection. Exchanging the ends of a relation between the outer columns can change the look of its line. Distances are below ten rows of tables.", "quantifier": "all pairs of modules with tables of the same sizes within the range", "why_tests_cant": "a statement about pairs of modules; in the second column it fails and the model gives the counterexample", "anchors": ["src/layout.rs: draw_edge_path, compute_shortest_path", "src/renderer.rs: draw_edge_connection"]}
{"id": "C104", "title": "Layout can be done again", "statement": "For every document, placing the nodes a second time changes nothing. Drawing the paths a second time with the same engine gives the same document and leaves the graph of the engine as it is; so both steps can be repeated for every module of bounded height. A different document, however, is not always drawn by a used engine as by a new one: the engine keeps its graph, and a line can then run through a table that it would go round.", "quantifier": "all documents, engines and modules", "why_tests_cant": "relates two runs of the engine over all documents; the refuted clause needs two documents that share an engine, which the command line tool never draws", "anchors": ["src/layout.rs: SimpleLayoutEngine::place_nodes", "src/layout.rs: SimpleLayoutEngine::draw_edge_path", "src/layout.rs: RouteGraph::add_node, add_port, add_edge"]}
{"id": "C105", "title": "Places at nearly the same height are joined in the gap", "statement": "In a module within the exact range, two places in neighbouring columns, entities or fields, whose middles are less than 190 apart in height are always joined in the gap between the columns: the line leaves the middle of the facing side of the first, goes in one direction along the middle of the gap, and enters the middle of the facing side of the other, whatever other relations there are; it meets no table. Entities side by side in the grid whose numbers of fields differ by ten at most are such places. At a difference of 255 this is false.", "quantifier": "all modules within the exact range, all relations of any kind in them between places in neighbouring columns", "why_tests_cant": "relates the drawn line to heights over all diagrams and all other relations; a sample of diagrams shows only some of the competing ways", "anchors": ["src/layout.rs: SimpleLayoutEngine::draw_edge_path", "src/layout.rs: compute_shortest_path", "src/layout.rs: connect_nearest_neighbor_edge_junctions"]}
{"id": "C106", "title": "A table and the next one below are joined by a straight line", "statement": "In a module within the exact range, the line of a relation between a table, or its last row, and the table directly below it in the grid is one vertical line from the middle of the lower side of the upper table to the middle of the upper side of the lower table, without turning back, whichever is named first and whatever other relations there are; it meets no table. For the table after the next, and for a row that is not the last, this is false.", "quantifier": "all modules within the exact range, all relations in them between a table or last row and the next table below", "why_tests_cant": "the straight way must be the cheapest among all ways through all graphs, although costs are rounded down", "anchors": ["src/layout.rs: SimpleLayoutEngine::draw_edge_path", "src/layout.rs: compute_shortest_path", "src/layout.rs: connect_nearest_neighbor_edge_junctions"]}
{"id": "C107", "title": "Relations with the last field of the table below cannot be drawn", "statement": "In a module within the exact range, a relation, in either direction, between a table of at least two fields and the last field of the table directly below it makes the program stop with a panic, whatever other relations and tables there are, provided that no relation ends in the lower table as a whole or in the last field of a table further down in the column, and no table to the left of the lower table in its row is taller; if the ends of all relations have no side in common, the panic is that of a line turning around. Conversely, if a line turns around, some relation joins places of one column that are not a table directly below a table or last field; such lines never turn. Without the condition on the lower table the first claim is false.", "quantifier": "all modules within the exact range, all relations in them", "why_tests_cant": "the claim is about every module containing such a relation; which of the places below the lower table the graph joins to the line above it depends on the order in which all junctions of the diagram are listed", "anchors": ["src/layout.rs: SimpleLayoutEngine::draw_edge_path", "src/layout.rs: connect_nearest_neighbor_edge_junctions", "src/layout.rs: compute_shortest_path", "src/renderer.rs: draw_edge_connection"]}
{"id": "C108", "title": "Which nodes of the routing graph are joined", "statement": "Two nodes of the routing graph are joined exactly when one of them picks the other. In each of the four directions in which a node has others that a line may leave for, it picks exactly one: the nearest among those with no table in between (as the collision test of the program sees it) and the one that was added to the graph first, with or without a table in between. So the claim that only nodes with no table in between are picked is false, downward, to the left and to the right. Upward, in modules within the exact range, the collision test never finds a table, so the nearest node is picked.", "quantifier": "all modules that are laid out, all pairs of nodes", "why_tests_cant": "the graph of every diagram is concerned; the exception for the first node comes from the precedence of two operators and shows only for particular orders of the nodes", "anchors": ["src/layout.rs: connect_nearest_neighbor_edge_junctions", "src/layout.rs: RouteGraph::add_edge"]}

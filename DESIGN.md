# Formal model of nlsn-delaunay-refine

Rocq (Coq 8.16.1) model of the non-test Rust code in `/repo/src`, with machine
checked proofs of the properties of `properties.jsonl`.  The status of each
property is in `MANIFEST.json`; the wrong programs tried against the theorems
are in `seeded/LOG.jsonl`.

## Layout (`rocq/theories`)

| file | models |
|---|---|
| `Base.v` | outcomes (`Ok`/`Panic`/`NoFuel`), hash sets and maps, iteration order |
| `Arith.v` | the record of f64 operations all code is written over |
| `ArithR.v`, `ArithF.v` | the two instances: exact reals, IEEE binary64 |
| `Geometry.v` | `elements/vertex.rs`, `elements/bounding_box.rs`, `properties/*.rs` |
| `Elements.v` | `elements/edge.rs`, `elements/triangle.rs`, `planar/triangulation.rs` |
| `Polyline.v` | `elements/polyline.rs` |
| `Procedures.v` | `planar/triangulation_procedures/*.rs` |
| `Refine.v` | `planar/refine_procedures/*.rs`, `planar/refine_params.rs` |
| `Triangulator.v` | `planar/triangulator.rs` |
| `Interface.v` | `triangulator_interface/**`, `json_serializar/models/{action,input,output}.rs`, `glium_interface/vertex.rs`, the pipeline of `main.rs` |
| `Json.v` | `json_serializar/**` on JSON values (serde's rules for the derived readers and writers), `main.rs` from the value read to the value written |
| `Main.v` | `main.rs` with its options and `json_serializar/io.rs`, on a file system |
| `Display.v` | the `fmt::Display` texts of `elements/*`, `planar/triangulation.rs` and `planar/triangulation_data.rs` |
| `Conformance.v` | the crate's own unit tests replayed on the model (tests, not proofs) |
| `Spec.v`, `SpecI.v`, `SpecR.v`, `SpecD.v`, `SpecP.v`, `SpecM.v`, `SpecC.v`, `SpecE.v`, `SpecJ.v`, `SpecS.v`, `SpecK.v`, `SpecL.v`, `SpecQ.v`, `SpecT.v`, `SpecF.v`, `SpecU.v`, `SpecV.v`, `SpecW.v`, `SpecX.v`, `SpecN.v`, `SpecMain.v`, `SpecO.v`, `SpecY.v`, `SpecZ.v`, `SpecShow.v`, `SpecRej.v` | independent specification vocabulary for the structures, the interface, plane geometry, Delaunay triangulations, polygons filled with triangles, and runs of refinement and Boolean operations (no model helper is used to state what a result should be) |
| `P_*.v` | lemmas and proofs |
| `T_*.v` | the property theorems, one file per topic; each is closed by `exact lemma`, followed by `Print Assumptions`; the witness that its hypotheses are met stands beside it |

Every definition of the model cites the Rust file and lines it stands for.

## Modelling decisions

* **Arithmetic.**  Code is written once over `A : Arith`, a record of f64
  operations with only two laws: the hasher's identity is decidable and
  `approx_eq!(x, x)` is true.  Theorems about control flow and data structures
  hold for every `A` (so also with NaN, overflow and any rounding).  Geometric
  theorems are about `ArithR`, exact real arithmetic with the crate's
  tolerance 1e-14: rounding error is **not** covered by them,
  except where T_Float.v shows that binary64 computes the exact values or signs (C107, C109-C111).  Concrete runs
  and refutations use `ArithF` (Coq's `SpecFloat`, binary64, same operation
  order as the source, 4x4 determinant by LU with partial pivoting as in
  nalgebra).  `acos`, `sin`, `cos` are approximations in `ArithF`.
* **Hash containers** are lists with lookups by identity of the hashed data.
  Rust looks up by hash and then `==`; since the crate hashes exact bits and
  `==` is coarser, a lookup can differ from identity only when two `==` but
  not identical keys collide on the 7 tag bits and the probe position, which
  the model leaves out.  `-0.0` and `0.0` hash differently in the crate
  (`integer_decode` gives different signs) and are different in `ArithF`, equal in
  `ArithR`.
* **Iteration order.**  Each iteration over a hash container asks an oracle
  `H : HashOrder` (a permutation depending on the place in the run).  Theorems
  hold for every oracle.
* **Loops** without a syntactic bound carry fuel; running out gives `NoFuel`,
  never a wrong value.  `C62` proves that a result does not depend on fuel.
* **Panics** (`unwrap`, index out of range, underflow, `panic!`) give `Panic`.
* `Rc`/`RefCell` sharing is dropped: the crate never mutates shared vertices,
  edges or triangles and compares by value.  `RefCell` double borrow panics are
  not modelled.
* **Not modelled:** the parsing of command lines (structopt), the text of
  JSON files (`Main.v` has arbitrary functions for it, `Json.v` starts from the
  value a file spells; number literals are already integers or doubles), writes
  that fail half way, how identifiers and dates are generated and
  spelled (`id` and `now` are parameters), how numbers are
  spelled when printed (a parameter of `Display.v`), `glium` windows and shaders, memory
  exhaustion, `isize` overflow of the parity counter, `sort_by` on more than 20
  elements (`Vertex::sort` only).

## Trusted base

Coq's kernel, the correspondence between the model and the Rust text described
above, and per theorem the axioms printed by `Print Assumptions`: nothing
("Closed under the global context") for theorems over any `A`; for `ArithR`
theorems the axioms of Coq's classical reals
(`ClassicalDedekindReals.sig_forall_dec`, `sig_not_dec`,
`FunctionalExtensionality.functional_extensionality_dep`, and
`Classical_Prop.classic` where the Reals library uses it).  No axiom is added.

## Plan per property

A = every arithmetic, R = exact reals, F = binary64 witness.

| id | model | method |
|---|---|---|
| C01-C04 | `orientation`, `continence`, `circumcenter`, `encroach` on R | polynomial identities (`ring`, `nra`), specification by distances to a centre and cross products |
| C05-C06 | `intersection` on R | Cramer's rule; case split parallel / not parallel |
| C07 | `bbox_*` on R | induction on lists |
| C08-C10 | `poly_contains` on R | each side contributes `sigma*(s2-s1)`; compare with two half-open crossing counts; induction along the polyline |
| C11-C14 | `quality`, `area_*`, `angle`, `midpoint` on R | algebra, Cauchy-Schwarz for the angle |
| C15, C16 | `veqb`, `vertex_sort` | refutation by F/R witness; positive part proved (`P_Sort`: nothing is lost, a column is ordered) |
| C17 | `vcmp` on R | case analysis |
| C18 | `split_intersections` (A) | worklist invariant |
| C19 | `poly_continence` (A) | structural: the only unwraps are guarded |
| C20 | `poly_union` (A, all H) | invariant of the chain builder |
| C21 | `poly_continence` | refutation by F witness |
| C22 | `intersection_vertices` (R) | from C05/C06 |
| C23, C24, C25 | `edge_arrange`, `decompose`, `edge_contains` | multiset invariant and measure; induction on the walk; algebra |
| C26-C28 | histories of include/remove (A) | induction on histories; refutation of the unrestricted completeness |
| C29-C32 | `vertices_include` (A, all H) | loop invariants of the cavity loop |
| C33-C35 | `vertices_include` on R (all H, no constraints) | the conflicting triangles form a tree towards the new point (power of the point, then arc count, decrease through exactly one side), so the cavity loop removes exactly them and fans their border; crossing numbers summed over the closed mesh show that nothing overlaps; pencils of circles give empty circles |
| C61, C63 | `vertices_include` | refutation by F witness |
| C67-C69 | same as C33 | walk along decreasing power to the triangle that contains a point; affine difference of two powers for uniqueness |
| C36, C37 | `boundary_include`, `hole_include` (A) | flood-fill measure, invariants |
| C38-C41, C43 | `insert_*`, `triangulate`, `refine` (A) | case analysis and induction over loops |
| C42, C44-C46 | same | refutation by F witness |
| C47-C49 | refine procedures | dyadic tiling invariant; filters; rollback by set algebra |
| C50, C51 | `refine`, `unencroach` | refutation by F witness |
| C52, C53 | `output`, `glium_*` (A, all H) | injective index map; the order mismatch is refuted |
| C54-C56, C58 | interpreter, domain evaluator | specification by fold over actions; refutations by F witness |
| C57 | `parse_circle` on R | trigonometric identities |
| C59 | `absorb_loop` (A) | measure 2*free vertices + pending |
| C60 | accessors (A) | case analysis, induction |
| C62 | all fuelled functions (A) | induction on fuel |
| C70, C71 | `triangles_hull`, `minified_noncolinear` (A) | invariant of the pairing map; filter over positions |
| C72 | `split_irregular`, `refine` (A, all H) | the run is an inductive relation; queue invariant |
| C73, C74 | `triangulate` (A, all H) | stage by stage, from C29-C32 |
| C75, C76 | `poly_intersection`, `poly_subtraction`, `poly_union` (A, all H) | invariants of the chain builder; with one candidate per step the chain is the polygon |
| C77, C78 | whole `triangulate` on a polygon (R, all H) | the kept triangles are a union of faces bounded by the polygon; winding number as a sum over the kept triangles, constant along ways that meet no side; the flood stops exactly at the sides |
| C79 | same | the first insertion hands every waiting vertex to a new triangle |
| C80 | same | C35 and the termination of the flood |
| C81 | `winding` (R) | crossings of a ray telescoped along the chain |
| C82 | witness run (F) | counterexample: a free vertex beside a segment is handed to a triangle behind the segment, and the mesh gets a clockwise triangle and an overlap |
| C83 | `vertices_include` with constrained edges (R, all H) | the triangles hit by the new vertex that are reached without crossing a constrained edge (the zone) form a tree towards it; a triangle with a point that sees the vertex is in the zone; the cavity loop removes exactly the zone; winding numbers show that nothing overlaps afterwards |
| C84 | whole `triangulate` on a convex polygon with vertices (R, all H) | C105 for the polygon, then C83 vertex after vertex; nothing crosses in the boundary test because every point stays off the sides by more than the tolerance |
| C85 | constrained Delaunay meshes (R) | walk from the triangle toward the vertex: the triangle entered has the vertex inside its circle too, and the rank of C83 decreases |
| C86 | witness runs (F, two hash orders) | counterexamples: a triangle is left out of the conflicts as soon as one end of the new segment is beyond the line of a constrained side |
| C87 | witness runs (F, two hash orders) | counterexamples: the halves of a segment are not yet constraints while the next segment is split |
| C88 | `split_segment` on a mesh of a convex polygon (R, all H) | the middle of a part of a side is on the hull: the cavity lies on one side, the boundary test crosses nothing; the parts are ordered by their ratio along the side |
| C89 | `try_circumcenter` (R, all H) | the cavity of a deep centre holds no outer face; a free part whose diameter circle has the centre inside has its triangle in the cavity (pencil of circles through its ends) |
| C90 | `unencroach` (R, all H) | C88 under every loop, the pending parts and the kept constraints partition the sides |
| C91 | `refine` (R, all H) | C88 to C90 as invariants of the two queues; the points tried are read off the run by a second interpreter (`refine_attempts`) that only outputs them |
| C92 | `triangulate` then `refine` (R, all H) | C84 then C91 |
| C93 | `refine` (R, all H) | the boundary test gives an answer for every triangle (its own sides are split at the crossing and the parts cross nothing more); points told apart lie in different cells of a grid, so at most a fixed number fit in the polygon; every turn of the outer loops adds a vertex |
| C94 | `segment_include` (A, all H) | exact description of the conflict filter; the corners of what is put in are followed through the inner triangulation; induction over the loop for missing sides |
| C95 | `edge_arrange`, `decompose` (R, all H) | C23, C24; a point with zero area and positive dot product is between the ends |
| C96, C97 | `insert_hole`, `triangulate` (F) | concrete inputs, two hash orders each |
| C98 | `hole_include` (R, all H) | sides with an empty circle are edges of the mesh (C69); the flood from the hole sides removes the triangles of winding number one and no other, since the winding number is constant across unmarked edges |
| C99 | `triangulate` (R, all H) | C84 then C98 |
| C100, C101, C102 | `poly_intersection`, `poly_subtraction`, `poly_union` (R, all H) | the split is a subdivision of both polygons (`split_pieces`); a ray count shows that the product of two winding numbers is a sum over the pieces, each weighted with how often the other polygon surrounds its middle (`product_rule`); kept pieces are balanced at every point, so that the chains close (`build_closing`); polygons on a grid meet the conditions of the tolerance |
| C103, C104 | `domain_holes`, `parse` (A, all H) | loop invariants on the removals merged so far; parse composes C54, C58, C103 and the insertion specs (`SpecL`, `P_L1`) |
| C105 | `vertices_include`, `triangulate` (R, all H) | every waiting point waits at the one outer face whose hull edge it sees; when that face is removed, one of the two outer faces that replace it takes the point, whatever the order in which the cavity is walked (`P_L2`); corners of a strictly convex polygon are in convex position (`P_L3`); then C77 to C99 without conditions on the run (`P_L4`) |
| C106 | `run_main` (R, all H) | C54 and a direct run of the domain evaluator for one include; a vertex off the sides is reported inside; then C84, C92, C93 and C52 (`SpecT`, `P_L5`) |
| C107, C108 | geometry, `contains`, `insert_vertices` (ArithF) | an operation of SpecFloat is exact when the exact result has fewer than 53 bits; all intermediate values on the grid do; then the specs over R without the tolerance (`SpecF`, `P_Z1`-`P_Z4`); C108 by evaluation |
| C109 | `continence` (ArithF) | every SpecFloat operation rounds to nearest (relative error 2^-53 when not tiny); error of one elimination stage, pivots chosen by size, four stages give an error below half a unit of the grid (`P_Z5`-`P_Z10`) |
| C110 | `vertices_include` (ArithF) | the arithmetic-generic cavity lemma of `P_Cavity` is used for doubles, its conditions being carried over from the real Delaunay mesh which the mesh of doubles stands for (`P_Y1`-`P_Y3`) |
| C111 | `triangulate` (ArithF) | the argument of C105 repeated over any arithmetic that agrees with the real plane on the corners (`P_Y5`); the sweep of the boundary is carried over triangle by triangle, and C84 describes what is left (`P_Y6`, `P_Y7`) |
| C112, C113 | drawing lists, lists of coordinates (A, all H) | direct, by induction over the lists (`P_V1`) |
| C114 | `poly_intersection`, `poly_subtraction`, `poly_union` (ArithR) | the choice by angle is least by transitivity; invariant of the loop that extends a chain (`SpecU`, `P_V1`) |
| C115 | `poly_intersection`, `poly_subtraction` (A, all H) | the loop as a rewriting of lists of segments up to order; the short-circuiting tests as disjunctions (`SpecU`, `P_V2`) |
| C116 | `poly_subtraction`, `parse` (ArithF) | by evaluation (`P_Refuted5`) |
| C117 | `unencroach`, `split_irregular` (A, all H) | invariant relating the keys of the map to the current constraints, through both loops; parts by C47 (`SpecV`, `P_V3`) |
| C118 | `io::read`, derived `Deserialize` (A) | the struct visitor meets the relational description of fields, reader by reader; invariance by induction on `same_content` (`SpecW`, `P_W1`, `P_W2`) |
| C119 | derived `Serialize`/`Deserialize` (A) | computation on the written fields, induction on lists (`P_W2`) |
| C120 | `main` on JSON values (A; R for the polygon) | C118, C119, C106 (`P_W3`) |
| C121 | `refine` (A, all H) | neither the queue of split edges nor that of triangles starts with anything (`SpecX`, `P_X1`) |
| C122 | `run_main` on a circle (R, all H) | the ring is convex and resolved: chords by product formulas for sines, sin x >= 2x/pi; no side is encroached and no triangle misses, then C106's parsing, C84, C121, C52 (`P_X2`, `P_X3`) |
| C123 | Delaunay meshes and `run_main` (R, all H; doubles on small grids) | in a direction in which no two points are level, each triangle has one middle corner, and over and under each point but the two extreme ones there is exactly one triangle or outer face; outer faces start at the points on the sides (`P_Count1`-`P_Count3`) |
| C124 | `triangulate`, `refine` with a hole (ArithF) | by evaluation (`P_Refuted6`); this is why C91 to C93 and C106 are stated for polygons without holes |
| C125 | `boundary_include`, `triangulate`, `run_main` (ArithR, all H) | the flood from the turned sides reaches exactly the triangles the polygon goes around (`SpecN`, `P_Cw1`, from `P_J1` of C98); in a convex polygon that is every triangle (`P_Cw2`), then refinement rests (`P_X1`, `P_Cw3`); the panic by evaluation (`P_Refuted7`) |
| C126 | `triangulate` (ArithF) | by evaluation (`P_Refuted7`); this is why the polygons of C78, C98, C105 and C111 have free sides or are convex |
| C127 | `main` (A, all H) | case analysis of one run into its ways to end (`SpecMain`, `P_Main`), C120 for the value written |
| C128 | `triangulate` on one polygon (R, all H) | sliding the centre of an empty circle along the bisector of a side frees the side; with C78 the two conditions are exact (`P_Ff1`) |
| C129 | the whole program, `Polyline::arrange` (F) | refuted: in the example the walk of `arrange` stays in a set of vertices without its start, checked by computation; that this means no number of steps is enough is proved for all arithmetics (`P_Refuted8`) |
| C130 | `Polyline::arrange` (A, all H) | the walk read as a trail that is a function of where it stands, hence without repetition; following edges (`SpecO`) decides when it ends, and any start can be made the first key by some order (`P_Ar1`) |
| C131 | `vertices::include` with a boundary and holes (A, all H) | the boundary and hole tests read as a way that leads from triangle to vertex (`SpecZ`); invariant of the distribution and of both loops: whatever is listed or removed is at the end of such a way (`P_See`) |
| C132 | `fmt::Display` of vertices, edges, triangles, triangulations and lists of coordinates (A, all H) | texts split at the first mark in one way only, lines read one after the other (`P_Show`); the spelling of numbers is a parameter |
| C133 | `vertices::include`, `Triangulator::triangulate` on a polygon (ArithR, all H) | fuel is how often a loop may go round each time it is entered; 2n − 2 triangles bound the zone of a vertex and the flood (`P_Round`) |
| C134 | `Triangulator::triangulate` on a convex polygon with vertices, two runs (ArithR, all H) | each run leaves a Delaunay mesh of what it keeps (C84, `P_E8`), which is unique without four points on a circle (`P_D7`); sides do not depend on the start corner (`P_Same`) |
| C135 | `angle`, `Triangle::quality`, `Triangulator::refine` on a convex polygon (ArithR, all H) | sine and cosine of the angle at a corner from the cross and scalar products, addition formulas (`P_Angle`); C91 for what a refinement leaves (`P_Angle2`) |
| C136 | the whole program, `Triangulator::refine`, `Polyline::continence` on a convex polygon (F) | refuted by computation (`P_Refuted9`): `poly_continence` says that the line from an inner point to the middle of a side leaves the polygon, so the cavity of that middle is cut short and the mesh is no longer Delaunay; the next middle is then put into a triangle that is not next to it; another hash order, and the reals (C92), give a proper mesh |
| C137 | the wireframe (`glium_interface/vertex.rs`) of a mesh (all A, all H), of a convex polygon and after `Triangulator::refine` (ArithR, all H) | the lines and their reverses are a permutation of the sides of the solid triangles and of the outer faces (`P_Count4`); with C123 for the number of triangles |
| C138 | `Triangulator::triangulate`, `Triangulator::refine`, `main` (all A, all H) | a property kept by including and by removing a triangle is kept by every procedure (`P_Made`); taken for histories, with C26; the index triples name the triangles, which are distinct |
| C139 | `main` on a convex polygon that meets its targets (ArithF, all H); fillings of a polygon (ArithR) | C111 for the triangulation, C107 for the encroachment test, `refine_rests` for the refinement that changes nothing (`P_Z11`); two fillings by empty circles agree at the middle of each triangle, and the number of triangles is that of the real run (`P_Z12`). That the reader accepts the input is a hypothesis here, and proved in C140 |
| C140 | `intersection`, the reader, `main` (ArithF, all H) | rounding error of the 2x2 solve and of the tests against the box of both segments (`P_Z13`, `P_Z14`): a rational with a small denominator is further from the bounds than the error, so the tests agree with the exact ones; the reader by C54 (`P_Z15`), then C139. Crossings in the row or column of an end are left out: C141 |
| C141 | `intersection`, the reader, `main` (ArithF) | refuted by a polygon of four corners (`P_Refuted10`, stated in `T_Cross`) |
| C142 | `main` on a polygon with empty circles over its sides (ArithF, all H) | the power of a point in two such circles differs by an affine function that separates the sides, so they do not meet; then the reader by C140, the filling by C111 for free sides, the rest as in C139 (`P_Z16`). That every corner is in a triangle is a hypothesis on the mesh: batch insertion may drop vertices (C63) |
| C143 | `main` (ArithF) | refuted by a polygon of nine corners and two hash orders (`P_Refuted11`, stated in `T_Files`): the condition on the corners in C142 cannot be left out |
| C144 | `main` on files (ArithF, all H) | C140 and C142 for the lists, C120 and C127 for the files (`P_Z17`). That the text written is read back is a hypothesis: serde_json is not modelled |
| C145 | `triangulate` on four corners (ArithR and ArithF, all H) | the first of the two other corners removes one of the two outer faces; the second stays listed under the other one, or is looked for in all new triangles, and one of them has it in its circle (`located` in `P_D6`). Then the sweep as in C79 and C111 (`P_Y8`, `P_Y9`). C143 is why this stops at four: with nine corners one may be dropped |
| C146 | `interpret`, `parse`, `run_main` on inputs that are not accepted (all A, all H) | `SpecRej` lists refused and broken actions without the parsers; the three outcomes of one action are exhaustive (`action_cases` in `P_Reject`), splitting never panics because a crossing has an intersection point, and the list of actions follows by induction. C54 said when an input is accepted, C55 that panics exist; this says which answer the others get |
| C147 | `parse` on inputs with at most one include and no removal (all A, all H) | the meaning of each action is unique (`means_unique`), so C54 fixes what is collected; a single include is the boundary in every hash order; then C38 and C39 on the new triangulator, and continence with a two-point line never panics (`P_Ring1`) |

The theorems of C33-C35 and C67-C69 suppose points that the tolerances do not
confuse (`resolved`: an area or in-circle determinant within the tolerance is
zero, points within the tolerance are equal).  `C33_integer_points_resolved`
shows that integer coordinates of any size satisfy this.  They cover insertion
without constraints, boundary or holes.  C83 covers constrained edges that do not
hide the new vertex; in general constrained insertion is covered by the
structural theorems C29-C32 and C66, and C82 shows what goes wrong.
C88-C93 suppose that each point a refinement tries is told apart from the
vertices (`sound_attempt`); the points tried are given by `refine_attempts`
(`SpecE.v`), which follows the run of `refine` and only records them.

A claim that is false of the code is kept in `properties.jsonl`; its theorem
is named `..._refuted` and exhibits a counterexample, and whatever part of the
claim is true is proved beside it.

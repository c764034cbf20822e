# Formal model of cost_map

Rocq/Coq 8.16.1, standard library only. Sources: `/repo` (stonier/cost_map), read as text, never built or run.
Properties are in `properties.jsonl`, their status in `MANIFEST.json`, tests of the theorems against wrong
programs in `seeded/LOG.jsonl`.

## Modelling conventions

* **Numbers.** C++ `double`/`float` values are rationals (`Q`). Every floating operation is the exact operation
  followed by a rounding function `rnd`, a parameter of the model (class `Env`). A theorem is stated for
  `Exact E` (`rnd x == x`), for `binary64 p` (round to nearest even, 53 bits), or for `real_or_double E`
  (either); others hold for any rounding. C68-C71 redo the geometry with rounding, with explicit error bounds, PropDoubleRos.v the conversions and PropDoubleMerge.v and PropDoubleExtend.v addDataFrom and extendToInclude, PropInterpDouble.v, PropSpiralDouble.v, PropLineDouble.v and PropLoopsDouble.v interpolation, spirals, lines and loops that move the map, PropSubmapDouble.v the submap geometry. NaN, infinities, overflow of the
  exponent and subnormal numbers are not modelled, except in NonFinite.v (C95), which has overflow, infinities and NaN.
* **Integers.** `int`/`size_t` are unbounded `Z`; fixed width is explicit only where it matters (`unsigned char`,
  the 16-bit start index and 32-bit stamp of messages, the 32-bit radius of Inflate). C80 justifies this for the index
  arithmetic: IntModel.v repeats it with 32-bit `int`, and both agree on maps of fewer than 2^29 rows and columns.
* **Outcomes.** `Ok a | Throw exn | Fault f`. Assertions, out-of-bounds matrix accesses, reads of uninitialised
  variables and endless loops (out of fuel) are `Fault`s, so "no fault" theorems are safety statements.
* **Matrices** are column-major lists with dimensions; all access is partial (`option`).
* **Loops** are structural folds, or bounded by fuel that the theorems show to suffice.
* **Specifications** (Spec.v, ConvertSpec.v, InflationSpec.v, DoubleSpec.v and the first section of some Prop
  files) do not call the functions they specify.
* **Names.** `Cxx_...` is a theorem for property Cxx; `..._refuted` refutes an expectation by a computed witness;
  `Cxx_case` is a concrete case that satisfies the hypotheses. No theorem is `_partial`.

## Files (rocq/theories)

| files | content |
| --- | --- |
| Base, Mat | outcomes, rounding, rationals; matrices and layer tables |
| GridMapMath | grid_map_core functions that cost_map calls (trusted, see below) |
| GridIter, Iterators | cost_map_core/src/lib/iterators, submap_geometry.cpp |
| ImageBytes | image messages and files as bytes, with what cv_bridge does to them (trusted) |
| FileSys | bundles as files: paths, writing and reading, with what boost::filesystem does to paths (trusted) |
| Loops | loops whose body changes the map |
| NonFiniteBundle | fromImageBundle with infinite and NaN numbers in the yaml file |
| IntModel | the index arithmetic of GridMapMath, the loops and move again, with 32-bit int |
| NonFinite | lookups, setGeometry, move, merging, line ends and the inflation radius again, with infinities, NaN and overflow |
| Handles | copies of circle, ellipse and polygon iterators, which share the inner iterator |
| CostMap | cost_map_core/src/lib/cost_map.cpp, cost_map.hpp |
| Inflation, InflateEnv | cost_map_core operators/inflation; its float tables and queues |
| Converter | cost_map_ros/src/lib/converter.cpp |
| Bundles | cost_map_ros image_bundles.cpp, utilities.cpp, save/load nodes; cost_map_visualisations |
| Demo, Broadcaster | cost_map_demos/src/applications/inflations.cpp, src/lib/utilities.cpp |
| Costmap2D | cost_map_ros/src/lib/converter.cpp:216-243 with the external Costmap2DConverter |
| Spec, History, ConvertSpec, InflationSpec, DoubleSpec | specification vocabulary |
| BaseLemmas, GeoLemmas, FloatLemmas, FloatMono | lemmas on data structures, exact geometry, rounding |
| CoreProofs, CoreProofs2, CoreFinal, MoveProofs, MoveFinal, SubmapProofs, AddDataProofs, MergeMissing, ExtendProofs, InterpProofs | proofs for CostMap |
| IterProofs, FilterProofs, LineProofs, RingProofs, SpiralProofs | proofs for iterators |
| InflateProofs, InflateFinal, InflateAlias | proofs for inflation |
| MessageProofs, CostmapProofs, RegProofs | proofs for conversions; invariants of all calls |
| DoubleGeo, DoubleMap, DoubleMove, DoubleSub, DoubleShape, DoubleEllipse, DoubleExtend, LineDouble | proofs with rounding |
| Samples | concrete maps and decision procedures for hypotheses, used by examples |
| Prop* | the theorems, with examples and `Print Assumptions` |

## Per property

The column *arithmetic* is read off the theorem statements: exact, double, either of them, or any rounding function
(also: no floating point involved). Refutations are left out of it; they compute in a fixed environment.

| id | title | file | arithmetic | plan |
| --- | --- | --- | --- | --- |
| C01 | Layer registry stays consistent | PropCore, PropDeflate | any, double | calls as an inductive step relation (History.v), invariant by induction over histories; C01_operators adds inflation and deflation |
| C02 | add/get law | PropCore | any | effect on the named layer plus frame condition on all others |
| C03 | erase law | PropCore | any | as C02 |
| C04 | Cell write/read law | PropCore | any | as C02 |
| C05 | Missing layers are reported, never invented | PropCore, PropDeflate | any | every reader returns the exception, no state change |
| C06 | clear, clearBasic and clearAll set exactly the intended cells to NO_INFORMATION | PropCore | any | pointwise effect on every cell of every layer |
| C07 | Meaning of validity | PropCore | any | validity as a statement about basic layers and cells |
| C08 | hasSameLayers is layer inclusion | PropCore | any | list inclusion |
| C09 | Duplicate constructor names break the registry | PropCore | - | computed counterexample |
| C10 | setGeometry establishes a consistent geometry | PropCore | any, exact | exact arithmetic; assertion case separately |
| C11 | Index to position to index round trip | PropGeo | exact | exact arithmetic, wrap/unwrap are inverse |
| C12 | Position to index | PropGeo | exact | exact arithmetic, cells as half-open squares; computed binary64 counterexample |
| C13 | Cell centres form a regular grid | PropGeo | exact | exact arithmetic |
| C14 | move keeps data stationary in the world | PropMove | exact | world view `position -> value` preserved by one move and by traces of moves |
| C15 | move aligns to the grid and reports truthfully | PropMove | exact | exact arithmetic |
| C16 | move reports the newly covered regions | PropMove | exact | regions characterised cell by cell |
| C17 | move with the clamping boundIndexToRange of grid_map 1.6 | PropMove | exact | computed counterexample with clamping, proof for moves that do not wrap |
| C18 | getSubmap returns the parent's data at the same positions | PropSubmap | exact | four-region copy equals the window of the parent |
| C19 | getSubmap covers the request and reports failure | PropSubmap | exact | exact arithmetic; corners bound the request |
| C20 | addDataFrom merges cell by cell | PropDoubleExtend, PropDoubleMerge, PropMerge | exact, real or double | fold over the visit list; for a missing layer the first cell that asks is split off |
| C21 | overwriteData=false protects only maps with basic layers | PropDoubleMerge, PropMerge | any, exact, real or double | as C20; counterexample computed |
| C22 | extendToInclude keeps the grid aligned | PropDoubleExtend, PropMerge | exact, real or double | one axis at a time: corners, remainder and parity, with error bounds for doubles |
| C23 | extendToInclude need not include the other map, and can lose data | PropDoubleExtend, PropMerge | exact | as C22, with the exact cases in which the other map is included; counterexamples computed, two with decimal resolutions |
| C24 | Linear interpolation | PropInterp, PropInterpDouble | exact, real or double | convex combination of the four costs, for any solver of bounded error; fractions compared axis by axis for the rounded centres, float rounding by a table at the integers |
| C25 | CostMapIterator visits every cell exactly once | PropIter | any | iterator as state machine, list of visits characterised |
| C26 | Iterating an empty map is not safe | PropGrid, PropIter | any | any map without cells: the first visit is followed to its fault |
| C27 | SubmapIterator visits exactly the submap | PropIter | any | as C25 |
| C28 | CircleIterator visits exactly the circle's cells | PropWindow | exact | window shown to cover the circle, then filtered |
| C29 | Circle and ellipse iteration break on moved maps | PropSeam, PropWindow | exact | soundness on moved maps, computed counterexamples for completeness; when it goes wrong: the window is a rectangle of the buffer (PropSeam) |
| C30 | EllipseIterator visits exactly the ellipse's cells | PropWindow | exact | as C28, Cauchy-Schwarz for the bounding box |
| C31 | PolygonIterator visits exactly the polygon's cells | PropWindow | any, exact | as C28, crossing number as specification |
| C32 | LineIterator draws a connected line | PropLine | any | Bresenham error invariant |
| C33 | LineIterator between positions | PropLine, PropLineDouble | exact, real or double | search loop invariant; in doubles the samples of the search by induction, drift bounded, then the stop test; computed counterexamples |
| C34 | Spiral rings are complete | PropSpiral | any | quadrant by quadrant: the walk stays on the offsets whose norm has integer part d |
| C35 | Spiral iteration covers the disc | PropSpiral, PropSpiralDouble | exact, real or double | union of the rings of C34, on moved maps with the border test of the unmoved map; in doubles the same loop, the circle test and the quotient bounded; computed counterexamples |
| C36 | Inflation is sound | PropInflate | any | brushfire invariant, every queue order |
| C37 | Inflation stays within the radius and leaves everything else alone | PropInflate | any | as C36 |
| C38 | Inflation reaches every cell within Manhattan distance of the radius | PropInflate | any | as C36, induction on Manhattan distance |
| C39 | Inflation can miss cells within the Euclidean radius | PropInflate | - | computed counterexamples |
| C40 | Inflation of a single obstacle is exact | PropInflate | any | as C36 |
| C41 | Inflation terminates and stays in bounds | PropInflate | any | fuel bound, table bounds |
| C42 | Inflate caches by cell radius only | PropInflate | any | cache equality on radius |
| C43 | In-place inflation equals out-of-place inflation | PropInflate | any | lockstep simulation (InflateAlias.v) |
| C44 | ROS inflation cost curve | PropDeflate, PropExp | any, exact, real or double | any monotone rounding that is exact on small integers, any function with the bounds `exp_like`; C44_exp derives `exp_like` for the rounded real exponential; C44_value bounds the rounding errors of the exponent and compares with the exponential of the reals; computed counterexample for negative weight |
| C45 | Deflate | PropDeflate | any | fold over the visit list |
| C46 | Deflate undoes Inflate only without unknown cells | PropDeflate | any | composition of C36-C45 |
| C47 | Message round trip | PropMessage, PropRos | double, exact, real or double | records; floats by rounding lemmas |
| C48 | fromMessage failure and leftovers | PropDoubleRos, PropMessage | exact, real or double | case analysis on all messages |
| C49 | Start index is truncated to 16 bits in messages | PropDoubleRos, PropMessage | exact, real or double | arithmetic mod 2^16 |
| C50 | toGridMap | PropDoubleRos, PropGrid | exact, real or double | scale by computation over the 256 costs, then cell by cell; counterexample computed |
| C51 | Occupancy value mapping | PropGrid | any | computed over the 256 costs |
| C52 | Occupancy grid placement | PropDoubleRos, PropGrid | any, exact, real or double | exact arithmetic; counterexample computed |
| C53 | Loading images | PropImage | any, real or double | fold over pixels |
| C54 | 16-bit images are read byte-swapped | PropImage | any | byte arithmetic |
| C55 | Costs through an image bundle | PropBundle | any, double, exact | table over the 256 costs, lifted to bundles |
| C56 | Metadata through an image bundle | PropBundle | real or double | as C55; counterexample computed |
| C57 | resolveResourceName | PropLoadNode, PropRos | any | string lemmas |
| C58 | SaveImageBundle writes once | PropRos | any | callback histories as folds |
| C59 | Occupancy relay | PropDoubleRos, PropRos | exact, real or double | callback histories |
| C60 | The cost map service always reports success | PropCostmap, PropMessage | any, exact | the conversion from Costmap2DROS is an arbitrary function |
| C61 | end() designates the last cell | PropIter | any | list of visits without its last |
| C62 | SubmapGeometry and SubmapIterator describe the same submap as getSubmap | PropSubmap, PropSubmapDouble | exact, real or double | both call the same function; the window is listed once; in doubles with the error bounds of C70 |
| C63 | Inflation radius in cells | PropDoubleRos, PropInflate | exact, real or double | ceiling of a quotient; float counterexample computed |
| C64 | Inflation ignores the circular buffer | PropInflate | - | computed counterexample |
| C65 | The service relay sticks to the last single layer | PropDoubleRos, PropRos | exact, real or double | callback histories; counterexample computed |
| C66 | From one node's message to another node's map | PropRos | exact, double | composition of C47, C55-C58 |
| C67 | No call of any package breaks a map | PropAll | any, real or double | one step relation for all packages, induction |
| C68 | Positions and indices in double arithmetic | PropDouble | real or double | error analysis: every rounding within 2^-53 (DoubleGeo.v, DoubleMap.v) |
| C69 | Moving a map in double arithmetic | PropDouble | real or double | as C68, errors add up along a trace |
| C70 | Submaps in double arithmetic | PropDouble | real or double | as C68 |
| C71 | Shape iterators in double arithmetic | PropDouble, PropSeamDouble | real or double | as C68, perturbation of norms and edge crossings; moved maps as in C29 (PropSeamDouble) |
| C72 | Loading a hand-written image bundle | PropLoad | any, real or double | case analysis over all yaml contents; induction over the entries |
| C73 | A whole costmap_2d becomes a cost map cell by cell | PropCostmap, PropCostmapDouble | double, real or double | index arithmetic of the reversed row-major copy; error bounds as in C68 |
| C74 | A window of a costmap_2d around the robot | PropCostmap, PropCostmapDouble | any, double, exact | integer cell arithmetic on the costmap grid; computed counterexamples |
| C75 | Copies of circle, ellipse and polygon iterators share their progress | PropHandles | any | simulation: an invariant between the history of calls and the memory |
| C76 | What the demo node inflations shows | PropDemo, PropDemoCurve | real or double | composition of C36-C38, C44, C45, C51, C63 and C72 |
| C77 | The striped costmaps of the demo | PropStripes | any, real or double | induction over columns and rows; two roundings stay within 2^-43, less than the distance to the next whole number |
| C78 | Costmaps shown as occupancy grids | PropCostmapDemo | exact, or double on a dyadic grid | C73 and C74 followed by C51; on a dyadic grid every operation is exact |
| C79 | The broadcaster of transforms repeats the first transform of each name | PropBroadcaster | any | transition system with one event per step, induction over the events |
| C80 | Index arithmetic stays within int | PropInt | any, real or double | the same functions with every int result checked (IntModel.v), shown equal under range bounds |
| C81 | The repository's own tests | PropTests | any, double | computed |
| C82 | Messages that are not well-formed | PropStray | any, real or double | the k-th visited cell is the k-th unwrapped one shifted modulo the size; induction over the arrays, with and without assertions (Ndebug.v) |
| C83 | Points and vectors of cells | PropPoint | any, exact, real or double | unfolding, with the centre from C11 and C68 |
| C84 | Inflation with libstdc++'s priority queue | PropHeap | any | the sift loops of push_heap and pop_heap, with the heap order as invariant |
| C85 | A cost computer that throws spoils the Inflate object | PropThrow | any | first throwing entry in loop order; then the run with an arbitrary table (inflate_tables) |
| C86 | Image bundles whose yaml file has any shape | PropYaml | any | a document either says a record or is refused: case analysis on the tree (YamlTree.v) |
| C87 | When the cost computer is called | PropEffects | any | induction over the entries of the table; runs with tables that agree are equal |
| C88 | Geometries that only an assertion rejects | PropDegenerate | any, exact | setGeometry of Ndebug.v; sign of the rounded quotient; the index formula does not depend on the sign of the resolution |
| C89 | One Inflate object over its whole life | PropLife | any | radius and costs of the last call as ghost state (`lived`); the log of calls determines the table; runs with tables that agree where they are read are equal |
| C90 | How far inflation may be from the Euclidean distance | PropFactor | any | from C38: the square of the Manhattan distance is at most twice the square of the Euclidean one; limits by running the model on diagonal walls |
| C91 | Erasing a layer by a reference into the list of layers | PropAlias | any | erase with the name read again through the slot of the list (`erase_slot`) |
| C92 | Merging a map into itself | PropAlias | real or double | the other map replaced by the current state (`addDataFrom_self`); by the round trip of C68 every cell is written with its own value |
| C93 | SubmapIterator over any region, in particular those of a move | PropOutside | any | the k-th step is at the k-th cell of the window, shifted modulo the size if there is a start index; regions of a move lie in the buffer, so the modulus does nothing |
| C94 | A larger inflation radius does not only add | PropRadius | any | C40's closed form for both radii; the counterexample is run with the heap of libstdc++, where the entries that the larger radius adds change the order of entries at equal distances |
| C95 | Infinite and NaN positions, lengths and radii | PropNonFinite | any, real or double | the functions again over numbers with infinities and NaN (NonFinite.v), with the conversion to int as a parameter; a number that is not finite stays so through sums and quotients; for finite numbers every intermediate result is bounded, so that C80's bounds give agreement with CostMap.v |
| C96 | Iterators incremented past the end | PropPast | any | closed forms for the state after k increments: a counter that stops at its last value for the map and submap iterators, Bresenham's minor coordinate beyond the end of the line for LineIterator; induction over reachable states for the shapes |
| C97 | Image messages and image files, byte by byte | PropImageBytes | any, real or double | cv_bridge's decoding of a message and encoding of a matrix as functions on bytes (ImageBytes.v); a list made of blocks of equal length is indexed by quotient and remainder; then C53 |
| C98 | Bundles on a file system: writes that fail go unnoticed | PropFiles | any, exact, double | the files as a function from paths, parent_path and operator/ of boost as functions on strings, the paths that can be written as a predicate (FileSys.v); the loop over the layers by induction; reading back from C72 and the table of C55 |
| C99 | Image bundles with infinite numbers, NaN and numbers out of range | PropNonFiniteBundle | any, real or double | fromImageBundle over numbers that may be infinite or NaN, with the float product of image_bundles.cpp:79 (NonFiniteBundle.v); adding a layer does not look at the position, so the loop of C72 carries over; the rest from the setGeometry of C95 |
| C100 | Negative radii and axes | PropNegative | any, exact, real or double | the corners of the window change places, so it has at most one row and column; rounding to nearest is odd, so the squares of the axes do not see the sign; the number of rings from the monotonicity of rounding |
| C101 | Changing the map inside a loop over it | PropLoops, PropLoopsDouble | any, exact, real or double | the loop is the list of visits with the body run on each; moves keep position plus start index modulo the map's size |

## Trusted base

1. Coq's kernel (with its virtual machine, for `vm_compute`).
2. Axioms. `Print Assumptions`, run on all theorems of the Prop files, says "Closed under the global context" for every theorem and example except `C44_exp`, `C44_value`,
   `C44_value_case`, `C76_curve` and `C76_curve_case`, which are about the real exponential and use the standard library's `ClassicalDedekindReals.sig_not_dec`,
   `ClassicalDedekindReals.sig_forall_dec`, `FunctionalExtensionality.functional_extensionality_dep` and
   `Classical_Prop.classic`. No axiom is added here.
3. The correspondence between model and code. Every definition cites file and lines. It was established by reading;
   nothing was run. As a check, C81 computes the assertions of all of the repository's unit tests in the model: they hold,
   except for one that reads uninitialised members.
4. External code, modelled from its published behaviour: grid_map_core 1.6 (GridMapMath.v; `boundIndexToRange`
   clamps or wraps depending on the release, so it is the parameter `bpol`), Eigen matrices and casts,
   std::unordered_map/map, cv_bridge and OpenCV's conversion to gray (class `Cv`; theorems assume `gray_range` and, where needed,
   `gray_neutral`), yaml-cpp's printing of numbers (class `Text`, assumed exact by `text_exact`), its nodes (YamlTree.v, versions 0.5 and 0.6) and its reading of numbers (class `Scan`, arbitrary), ros::package::getPlugins (a list).
5. Parameters with stated hypotheses: `std::priority_queue` is any queue with `pq_spec` (returns some minimal
   element), so theorems hold for every tie-break, and C84 shows that the heap of libstdc++ is one (Heap.v, after its
   published source); square root, sine and cosine are arbitrary functions within
   error bounds (`sqrt_approx`, `9/10 <= cos^2+sin^2 <= 11/10` in C30); the distance table of Inflate is any table with
   `dist_ok`, which C41_float derives for `std::hypot` with relative error 2^-50 rounded to float, up to radius 2048.
   Eigen's solution of the four equations of linear interpolation is any function with the error bound `accurate` (C24);
   nothing is proved about the error of the QR decomposition itself.
   In C60_always_true and C60_failed the conversion behind the service is an arbitrary function; in C60_service it is the
   modelled one.
6. For C73, C74, C77, C78 and C60_service only: grid_map::Costmap2DConverter and costmap_2d::Costmap2D (Costmap2D.v) are modelled
   from memory of their published sources; no copy was available to check against. The repository's own code there is
   two calls under a lock. The assertions of the repository test from_ros_costmaps.cpp hold in the model (C81_full_window, C81_centres).

## Modelled and not modelled

Modelled: cost_map_core (maps, iterators, submap geometry, inflation, deflation); cost_map_ros: toMessage,
fromMessage, toGridMap, toOccupancyGrid, addLayerFromROSImage, image bundles, resource names, the save and load
nodes, the service, fromCostmap2DROS and fromCostmap2DROSAtRobotPose; cost_map_visualisations: the occupancy grid publisher and both relays; cost_map_demos: the nodes inflations and from_ros_costmaps, the filling of its costmaps, prettyPrint and the broadcaster of transforms.

Not modelled:

* The rest of the demos: parameters, start and updates of the costmap servers (an update clears the cells under the robot),
  and cost_map_cv (an empty header).
* Allocation failure; cell counts of 2^31 and above; behaviour with NDEBUG where an assertion would fail, except for fromMessage, at and setGeometry (C82, C88) (a call that the
  model shows to return has passed its assertions, so it returns the same without them).
* Arguments that are parts of the object a function changes, except where it matters: Inflate with one layer as source and
  destination (C43), erase with a name in the map's own list (C91) and a map merged into itself (C92).
* Yaml keys that are not scalars; png files with a failing
  decoder; writes that fail half way, links and other ways of naming one file twice.
* ROS transport, threads and timing: a node is the sequence of its callbacks, the broadcaster an interleaving of the
  steps of its thread with the calls of its owner.

## Testing the theorems

Wrong programs are made in a copy outside /verif by editing one definition of the model (a boundary, a case, an
argument, an update) and rebuilding. seeded/LOG.jsonl records the edit, the claim it should break and the theorems
that failed. "Failed" means that the proof script of the theorem, or of a lemma it rests on, no longer goes through;
it does not show that the theorem became false. In the first 140 lines the lists leave out
theorems that rest only on lemmas whose name has a prime or whose file name starts with R. An edit whose claim no theorem of that property caught is recorded as
such, with what was tightened (C72 came from two such edits).

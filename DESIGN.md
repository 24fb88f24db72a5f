# Formal model of richdem in Rocq (Coq 8.16.1)

Everything lives in `rocq/theories/`. Naming: `XxxModel.v` = executable model (each definition cites
file:lines of /repo), `XxxSpec.v` = small independent specification, `XxxProofs*.v` and the other files =
lemmas, `Properties*.v` = the property theorems, each followed by `Print Assumptions` and by `Example`s
that run the model on a concrete non-trivial case which meets the hypotheses.

Other files: `properties.jsonl` (the English properties), `MANIFEST.json` (property -> theorems),
`seeded/LOG.jsonl` (mutation tests), `tools/` (scripts that generate the two JSON files and run the mutants).

## 1. Modelling conventions

* **Elevations** are `Z`. Every algorithm modelled this way only *compares and copies* elevations, so
  any finite set of totally ordered values (all integer types; floats without NaN) embeds. `nextafter`
  is a successor function on that order (C35, C37, C50). NaN is modelled explicitly only for the queue
  comparators (C25); IEEE bit patterns only for the radix-heap keys (C46).
* **Rasters** in algorithm models are total functions `Z -> Z -> A` plus a width and a height; an
  update is a pointwise function update. The link to the flat `std::vector`-like store with 32-bit
  index arithmetic is the Array2D model (C11). Code which reads neighbours *without* an `inGrid`
  check is modelled with checked reads (`Undef` or `None` = undefined behaviour); that it never happens
  is part of the theorem.
* **`std::priority_queue`** is a bag; `pop` removes an element that is minimal for the comparator and
  *which* minimal element is decided by an oracle `tb : nat -> nat` indexed by step number. All
  theorems quantify over `tb`, hence over every heap implementation. Where the result depends on the order
  (C43, C44), the order of the real heap (most recent first, proved from the radix heap code, C45) is a hypothesis.
* **`std::queue`/`std::deque`** are lists (FIFO).
* **Loops** without an obvious bound are structural recursion on fuel and return `None` on exhaustion;
  theorems state that the fuel supplied by the model's top-level function suffices (termination).
* **Exceptions, assertions, out-of-range accesses**: the result type `res` of `Res.v` (`Ok`, `Thrown`, `Undef`).
* **Real-valued code** (flow proportions, water volumes) is modelled with exact rationals (`Qc`); rounding
  is modelled only for C82, C86, C88, C90-C92 and C95-C99. `pow`, `atan2`, `sqrt`, random numbers are parameters with stated assumptions.
* **OpenMP loops**: where the property is about schedules, the shared accesses are modelled as an
  interleaving of atomic reads and writes, or as an arbitrary partition/permutation of the iterations.

## 2. Per property: what is modelled and how it is proved

| id | model | proof method |
|----|-------|--------------|
| C01-C05 | PFModel: the loop bodies of Barnes2014.hpp | one invariant over an abstract flood relation (frontier minimal, processed cells have closed neighbours), refinement of each algorithm to it |
| C06 | same loop with label array | invariant: every closed cell has a recorded parent path |
| C07 | loop with (z,k)-keyed queue | rank function = closing time, strictly decreasing along flow |
| C08,C09,C36 | UFModel: parent/rank lists, fuelled findSet | rank/height invariant; refinement to the equivalence closure; 2^rank <= class size |
| C10 | LRUModel: cache list + last + len | invariant by induction over operations |
| C11-C13,C15 | ArrModel: Array2D flat list, explicit mod 2^32 | arithmetic; list lemmas |
| C14 | CacheModel: byte-level codec of the native file | round trip for every content, every prefix of the file for crashes |
| C16,C17 | FlowModel: per-cell functions with checked reads | case analysis over the 8 directions, elevation as measure |
| C18,C20 | FAModel on the worklist engine Kahn.v | topological-order invariant; sums |
| C19 | interleaving of loads and stores of the dependency counters | order independence without overlap; lost update witness |
| C21,C22 | FMModel: the metrics over Qc | algebra; exact routing and refutation by witness for C22 |
| C23,C24,C37,C38 | FlatsModel on the BFS engine BFS.v | BFS distance invariant; potential decreasing argument |
| C25 | CmpModel: comparators over `option Z` (None=NaN) | order axioms; pop sequence sorted |
| C26-C28 | DHModel: GetDepressionHierarchy step by step (OceanGroups, flood, outlets, tree) | DHTree: induction over sorted outlets; DHVol: cached search, volume sums |
| C39-C42 | the same, for the terrain | DHFlood/DHTerrain: flood invariant, outlets are lowest passes, escape levels |
| C29 | FSMModel: OverflowInto, MoveWaterInDepHier | FSMRoute*: recursion on the tree, conservation, spill only when full |
| C30 | MoveWaterIntoPits | FSMPits*: worklist engine, any schedule |
| C31 | DetermineWaterLevel, FillDepressions (fill_spill_merge) | FSMFill*: flood of one basin, conservation, level |
| C43 | FillSpillMerge end to end | FSMBasin/FSMFind: basins of the tree disjoint, each filled once, nothing left to move |
| C44 | order of the queue in GetDepressionHierarchy | DHLifo, DHPlain: with most-recent-first a flat bottom is one depression |
| C45,C46 | RadixModel: buckets, find_bucket, encoder on 32/64-bit words | bucket invariant; bit-level order isomorphism |
| C47,C48 | ZhouModel, WeiModel: trace queue, pit queue, two-pass heap | TraceFlood.v: invariant K (finished cells at their level; a way out of an unfinished cell passes the queues) |
| C49-C51 | BreachModel: pit scan, flood with back links, carving, modes, final fill | BreachProofs (pit scan), BreachLoop (least-cost back links, for any way of breaching), BreachComplete (carving relation; every carved cell and pit follows its path), BreachTop, BreachModes |
| C52-C54 | PPFModel: labelled flood of a tile, perimeters, merged label graph, both rounds, retention modes | PPFTile/PPFTile2 (the tile's flood simulates the Zhou2016 model; labels connected, every meeting of labels recorded), PPFGraph (aggregated flood = minimax over the graph), PPFMaster (geometry of tiles, merged graph sound and complete, level = max of tile level and label level), PPFTop (rounds, any arrival order); PPFSpec is the independent vocabulary |
| C55-C58 | PAModel: accumulation of a tile, paths between perimeter cells, perimeter numbering with 16-bit arithmetic, the producer's loop over the perimeters of all tiles, second round, retention modes | PAKahn (accumulation inside a tile, loops included), PATile (sums along paths), PAPath (FollowPath, links), PAGeo (tiles), PAMaster (the producer's network: one node per perimeter cell, Kahn order, balance of every node), PATop (rounds, any arrival order); PASpec is the independent vocabulary |
| C32 | MVModel: heap with ownership | refutation + restricted invariant |
| C33 | tables | exhaustive computation lifted to all directions (finite domain) |
| C34,C35 | PF variants | extension of the C01 invariant |

No listed property had to be given up as inexpressible. Where the English promise is false of the code, the
theorem with suffix `_refuted` gives a concrete run and another theorem of the property says what does hold.
| C59-C63 | MiscModel: BucketFill on flat indices, Perimeter per thread with 32-bit counters, conversion tables, the main function of rd_fill_spill_merge; AreaModel: dem_surface_area over R | Flood invariant and measure for BucketFill; C60 composes it with C42 and C43; Perimeter by counting sides (zsum lemmas); the area by Heron's formula against cross products (AreaSpec) |
| C64-C66 | TAModel: methods/terrain_attributes.hpp over R, with atan2 by cases | TASpec: best plane by weighted least squares, interpolating polynomial, derivatives of curves (stdlib `derivable_pt_lim`), compass bearings. Completing squares for the plane; polar form of atan2; coefficients of the polynomial by `field` |
| C67-C71 | A2Model: tiled/A2Array2D.hpp on top of CacheModel (cache files as bytes) and LRUModel; clients are lists of calls (`op`) run by `run` | A2Spec: one big raster (`spec_run`), `recent` tiles, files of a layout. Invariant `Inv` ties every tile (in memory, in its file, not yet created, with a pending setAll) to the big raster; the cache round trip of C14 carries it over evictions; `LR` ties the LRU list to the history |
| C72-C75 | LayoutModel: common/Layoutfile.hpp on strings as lists of characters (std::string find/substr/replace, getline), the layout handling of the tiled programs' Preparer | LayoutSpec: `layout_text rows s` (fields joined by commas, lines), `entries` (row-major listing), `file_part`/`dir_part`. Induction over fields, lines, and the generator's position |
| C76-C77 | DinfModel: flowmet/dinf_flowdirs.hpp and methods/dinf_methods.hpp over R (angles are floats in the code), asserts as `Undef` | DinfSpec: triangles, `steepest` (all points of all eight triangles), `share`, `sends`, `received`, `after_loop`. Cauchy-Schwarz for one facet; polar form of atan2; strict descent gives freedom from loops; the worklist scheme of PAKahn over R for the areas |
| C78 | DinfFlatsModel: flats/flat_resolution_dinf.hpp, with resolve_flats_barnes of FlatsModel on the outcomes of its comparisons (`status`) | FlatsSpec and DinfSpec, and `steepest_within` a set of cells. Receivers decrease (elevation, increment) lexicographically: no loops; induction over the increments for drainage |
| C79 | Arr3Model: common/Array3D.hpp with 64-bit addresses and int cell counts | Arr3Spec: an abstract raster of functions with a step per call; simulation over histories of calls, memory layout as the representation relation |
| C80 | AppsModel: the PerformAlgorithm functions of both programs over PFModel, FlatsModel and FlowModel | On a filled surface every flat is drainable (induction over minimax paths), so C38 gives every cell a direction; lexicographic descent for termination; disjoint union of upstream sets for the total |
| C81 | AppsModel: rd_loop_check with its size_t arithmetic | `moves` counts steps along the codes; induction over the iteration count; loops give endless paths |
| C82 | FAFModel: the text of FlowAccumulation over an arbitrary number type; the exact model of C20 is an instance by `reflexivity`, the IEEE model (Flocq binary32 proportions, binary64 accumulation, round to nearest even) another | lock-step with the worklist engine of Kahn.v gives the list of donors in arrival order; standard model of rounding ((1+d) factors) by induction over the levels of the network; exact integers below 2^53 |
| C83 | PyModel: numpy heap (blocks, offset/shape/stride views, attributes), rdarray, pywrapper.hpp's constructors and every function of the package over an arbitrary callee | memory effect of a call as one splice of a stretch; PyIntModel puts the C++ models of C47 and C49 behind the call |
| C84 | the same; PyFlowModel puts the C++ models of C20/C21 behind it | new blocks are beyond every existing reference; views share their block |
| C85 | the C_CONTIGUOUS flag; a wrapped array is a pointer or a dangling pointer | case analysis on the flag |
| C86 | PyNumModel: setNoData's overloads as pybind11 tries them, casts between float32, float64 and the integer types (Flocq), isNoData | modular arithmetic; rounding to nearest of exactly representable numbers |
| C87 | PyModel: name tables, geo_ok, generate_perlin_terrain, cli.py | case analysis on the tables; composition with C83 and C84 |
| C88 | EpsIntModel: Barnes2014.hpp:335-420 with integer elements (numeric_limits::infinity() = 0, nextafter towards 0 in double, conversion back) behind the Python package | invariant of the two queues (pit ordered and within one of the current level, open above) and a cut argument on drainage paths; Flocq for nextafter |
| C89 | PyDHModel: __init__.py:815-910 and pywrapper.cpp:139-177 on the heap of PyModel; C++ side either any function of the arrays or GetDepressionHierarchy / FillSpillMerge of C28/C43 | heap reasoning as for C83-C85; grids that agree inside the raster; C42 for small rasters, the core of C43 for the water |
| C90 | GDALModel: Array2D.hpp:42-65, 133-193, 444-475, 1112-1190, loaders.hpp; a file is a record of type, cells, NoData double, georeference, projection and metadata items; values are integers or Flocq floats; GDAL's conversion between types is a parameter | case analysis of the window arithmetic; exact conversion of every type to double and back; finite maps for the metadata; ring identities for the georeference |
| C91 | PyGDALModel: __init__.py:34-48, 160-183, 282-378 on the files of C90; arrays by value; conversion to float32 by Flocq rounding | rounding lemmas of C86, finite maps of C90; counterexamples 2^24+1 and 241 |
| C92 | PerlinModel: PerlinNoise.cpp:39-99, terrain_generation.cpp:11-24 over an arbitrary arithmetic, instantiated with IEEE doubles (Flocq) and with reals; the permutation is arbitrary | interval arithmetic through every rounding; weighted means of the fade curve for the exact range; correct rounding of equal quotients for the resolution |
| C93 | PyLayoutModel: apps/rd_layout_find_square.py, whole script, on ASCII texts (universal newlines, strip, split, numpy array shape) | invariant of the backward scan: every visited cell holds the size of its largest square; text lemmas; C72 for reading the output |
| C94 | PyLayoutModel: apps/rd_layout_check.py, whole script; os.path.exists is a parameter | list lemmas; C72 for what the reader makes of the same file |
| C95 | AppsGDALModel: apps/router.hpp and the programs rd_no_data, rd_geotransform, rd_projection, rd_processing_history, rd_expand_dimensions, rd_compare, rd_hist, on top of GDALModel; std::stoi modelled, std::stod a parameter | C90 for loading and saving, C13 for expand, folds for the loops |
| C96 | AppsShowModel: apps/rd_raster_inspect.cpp (arguments, flips, window, loop) and apps/rd_raster_display.cpp; what is printed as numbers, not as text | C95 for opening, C12 for flips; commutation of flags with the other arguments; lists |
| C97 | AppsDepModel: apps/rd_depressions_flood.cpp, rd_depressions_has.cpp, rd_depressions_mask.cpp; the algorithms run on the ranks of the values (integers in the same order), of which the theorems need no NaN and no negative zero among the cells | C04, C05, C34, C47 for the algorithms, C90 and C95 for files; ranks of IEEE numbers are exact (Flocq) |
| C98 | AppsFAModel: apps/rd_flow_accumulation.cpp; the D8 metric (FMModel) on the ranks of the values and the accumulation in IEEE arithmetic (FAFModel); algorithms 2 to 6 are a parameter | the metric's rows give a single receiver and no loops, so C82 counts cells exactly; C90 and C95 for files |
| C99 | AppsBreachModel: apps/rd_depressions_breach.cpp; complete breaching without gradients (BreachModel) on the ranks of the values, selective breaching of unsigned integers, the other modes a parameter | C50 and C51 for the algorithm, carried from the elevations of the array to those of the file (BreachSpec looks at cells of the raster only); C90, C95 and C97 for files |

## 3. Trusted base

* The Coq 8.16.1 kernel, including its `vm_compute` machine (used in examples, refutations and finite case checks).
* `Print Assumptions` prints "Closed under the global context" for every theorem in MANIFEST.json except those over the
  real numbers, C63_* to C66_*, C76_* to C78_*, C82_*, C86_*, C88_ieee, C90_* to C92_* and C95_* to C99_*. These use the axioms on which Coq's standard library builds the real numbers:
  `ClassicalDedekindReals.sig_forall_dec`, `ClassicalDedekindReals.sig_not_dec` and
  `FunctionalExtensionality.functional_extensionality_dep`, and (C64-C66, C76-C78, C82, C86, C88, C90-C92, C95-C99, through trigonometry and derivatives)
  `Classical_Prop.classic`. No other axiom is used. (vcheck also lists `Rdefinitions.RbaseSymbolsImpl.*` and `RinvImpl.*`, the
  opaque-module constants behind R, which have definitions. vcheck lists `Coq.ssr.ssrunder.Under_rel.*`: these are the
  opaque-module constants of the ssreflect plugin files loaded by the standard library's `lia`/`Qc` stack; no theorem
  depends on them.)
* That the model reads the C++ source faithfully: each definition cites file and lines. Where test data with
  expected output exists in /repo/tests the examples run the model on it (breaching, flats, depression filling).
* No functors, module types, section-less variables, admitted proofs, or switched-off checks.

## 4. What is modelled, what is not

Modelled (include/richdem/): common/Array2D.hpp (addressing, flips, transpose, expand, statistics, native cache, GDAL input and output), common/loaders.hpp, src/terrain_generation,
common/Array3D.hpp, common/ManagedVector.hpp, common/constants.hpp, common/grid_cell.hpp, common/disjoint_dense_int_set.hpp,
common/radix_heap.hpp, tiled/lru.hpp, depressions/Barnes2014.hpp, depressions/Zhou2016.hpp, depressions/Wei2018.hpp,
depressions/Lindsay2016.hpp, depressions/depressions.hpp, depressions/depression_hierarchy.hpp (without LastLayer),
depressions/fill_spill_merge.hpp, flowmet/{d8_flowdirs,OCallaghan1984,Fairfield1991,Freeman1991,Holmgren1994,Quinn1991,
Tarboton1997}.hpp, methods/flow_accumulation*.hpp, methods/d8_methods.hpp (d8_flow_accum), flats/*.hpp;
misc/misc_methods.hpp (BucketFill, BucketFillFromEdges, Perimeter, dem_surface_area), misc/conversion.hpp,
methods/terrain_attributes.hpp, flowmet/dinf_flowdirs.hpp, methods/dinf_methods.hpp, tiled/A2Array2D.hpp, common/Layoutfile.hpp, the layout handling of both parallel programs' Preparer, apps/rd_merge_rasters_by_layout.cpp, apps/rd_fill_spill_merge.cpp, apps/rd_taudem_d8_to_richdem_d8.cpp, apps/rd_d8_flowdirs.cpp, apps/rd_flood_for_flowdirs.cpp, apps/rd_loop_check.cpp;
programs/parallel_priority_flood/{main.cpp,Zhou2016pf.hpp}, programs/parallel_d8_accum/main.cpp.
wrappers/pyrichdem/richdem/__init__.py and cli.py, wrappers/pyrichdem/src/pywrapper.{hpp,cpp} (C83 on: which arrays are read, written and created; plotting left out).
Sections added by later milestones are listed in section 6.

Not modelled: floating point rounding (except C82, C86, C88, C90-C92, C95-C99) and NaN elevations in the algorithms, logging, progress bars, timers, GDAL
itself (C90 models the functions that call it) and compression, MPI transport, memory exhaustion, int overflow of cell counts above 2^31 except where
stated (C11), Array2D::printing, code that does not compile when instantiated
(Orlandini2003.hpp, strahler.hpp, d8_upslope_cells, ResolveFlatsFlowdirs_Barnes2014, garbrecht.hpp,
programs/tiled_flat_resolution, which uses the offset tables dx and dy that no longer exist).

## 5. Findings (violations and oddities of the code that the proofs brought out)

Proved (`_refuted` or characterisation theorem):
* PriorityFlood_Barnes2014_max_dep counts depressions that share a spill cell jointly (C34).
* DisjointDenseIntSet::makeSet(2^32-1) empties the set (C08); mergeAintoB can create a cycle (C09).
* LRU: a pruned entry that was `last` cannot be inserted again (C10).
* Stable priority queue: insertion counter truncated to int, tie order wrong after 2^31 pushes (C25).
* ManagedVector: assignment to a wrapper of external memory frees that memory (C32).
* Array2D: size() overflows from 2^31 cells (C11); flipHorz always leaves the buffer, transpose is the identity on
  squares and wrong otherwise (C12); truncated cache files load undetected (C14); numDataCells stale (C15).
* d8_flow_accum: data race on the dependency counters loses updates (C19).
* FM_D4/FM_Rho4: D4 neighbour numbers are read as D8 numbers downstream (C22); FM_Tarboton: the larger share goes to the
  farther facet corner (C21).
* ResolveFlatsEpsilon on integer DEMs inverts the gradient (C37).
* MoveWaterIntoPits: a flow target with flat index 0 (cell (0,0)) is taken for NO_FLOW, so a cell draining into the corner is treated as a pit and the corner keeps its water; D4 hierarchies are misread (C30).
* FillDepressions (fill_spill_merge): saddle-deficit assertion and tolerance abort (C31); the hierarchy asserts of
  FillSpillMerge hold only with the real queue order (C43, C44).
* radix_heap (non-pair) min() is stale; -0.0 after +0.0 trips the heap assertion (C45, C46).
* Wei2018 drains into interior NoData, Zhou2016 fills NoData cells (C47, C48).
* Lindsay2016: "that which cannot be breached is filled" fails when the loop stops at the last pit; constrained breaching
  ignores maxdepth (C51). tests/breaching/testdem1.constrained-len4-depth3.out is not what the code produces.
* parallel_priority_flood: SaveToCache writes dem and labels to the same file, so runs with a cache directory always fail
  (C54); missing tiles in the first row or column are not treated as outside (index conditions main.cpp:967-974), and an
  all-missing layout is undefined behaviour (C53).
* parallel_d8_accum: --flipH is undefined behaviour (flipHorz leaves the buffer); tiles of one row are undefined
  behaviour; VerifyInputSanity comes after the reads it should protect; loops across tiles go unreported (C57); flow
  across a corner between two otherwise missing tiles is lost (C56); tiles of one column number cells twice (C58).
* Perimeter with CELL_COUNT counts data cells on the edge of the raster only, not those next to NoData (C61);
  convert_arc_flowdirs_to_richdem_d8 refuses every raster with a NoData cell (C62).
* terrain_attributes.hpp: flat cells have aspect 270, not -1 (C64); curvature is not the difference of planform and
  profile curvature on peaks and pits, is wrong for rectangular cells, and may equal the default NoData value -1 (C65), as
  may SPI and CTI (C66).

* A2Array2D: setNoData is lost on tiles waiting in a cache file; tiles whose input files have equal base names share one
  cache file and overwrite each other; the constructor with explicit sizes leaves null_tile_quick empty, so any access is
  out of bounds; cache size 0 and an array modelled on an unused writable array are undefined (C67). LRU::last is
  uninitialised: if it equals the first tile used, that tile escapes the count (C68). Tiles running east to west, and
  options fliph/fliphv of rd_merge_rasters_by_layout, always hit the out-of-bounds flipHorz (C69). A layout with a gap can
  only be merged if the NoData value is -1 (C70). saveGDAL of a tiled array passes 0 as message, a string from a null pointer, and so
  never saves a tile; apart from that it would leave bottom-up tiles turned over in memory (C71).
- Layoutfile.hpp: an empty layout file, one whose only column is blank, and next() after the end are undefined behaviour
  (C72). A last column without any tile is lost on writing (C73). Base names are lost, and layouts written elsewhere, when
  a directory has a period and the file has none (C74). With %f, tiles of the same base name overwrite each other; output
  directories per tile give a useless layout; an output layout of the input layout's name destroys it (C75).
- dinf_flowdirs.hpp: the direction due east is 0, which means "no flow": a plane falling due east has no flow at all, and
  the last column does not drain (C76); then all areas inside are 0; cells without flow count 0 cells instead of 1; the
  shares of the two receiving neighbours are exchanged (C77).
- flat_resolution_dinf.hpp: the "TODO: may create dependency loops. Does it?" is answered: it does not (C78). Flats whose outlet
  drains due east are not resolved, and flat cells resolved to due east still read as "no flow" (C78).
- Array3D.hpp: numDataCells counts the values of the first ninth of the memory; operator== ignores NoData and, for 2^32 values
  or more, never ends; no_data is uninitialised; clear() keeps the dimensions (C79).
- rd_flood_for_flowdirs: directions of rasters stored south to north have north and south exchanged; rasters stored east to
  west are undefined behaviour (C80). rd_loop_check: the limit is the width instead of the cell count, so winding paths are
  reported as loops; below ten columns nothing is reported at all (C81).
- FlowAccumulation with a double array stops counting single cells at 2^53 (C82, of no practical weight).
- Python FlowAccumulation(dem, weights=w, in_place=False) overwrites w: `copy=True` is swallowed by `**kwargs` (C84).
- Python in_place=True, FlowAccumulation, FlowProportions and TerrainAttribute on views that are not C-contiguous read and write freed memory (C85).
- Python: float64 arrays whose no_data is not exactly a float32 (-9999.9, -DBL_MAX) have no NoData cells; a NaN no_data never matches; uint8 arrays without NoData value lose 241 to the default -9999; int32 with no_data 2147483647.0 is undefined behaviour (C86).
- Python: rd_breach_depressions writes the unbreached DEM; FlowProportions raises on generate_perlin_terrain's output; two method names of the help text do not exist (C87).
- Python FillDepressions(dem, epsilon=True) on integer arrays silently leaves every depression in place (for elevations >= 0): numeric_limits<int>::infinity() is 0, and the throwing overloads are not selected by the binding (C88).
- Python fill_spill_merge documents that it updates the hierarchy `deps`; pybind11 hands C++ a copy, so the caller never sees the water volumes (C89).
- ProcessMetadata loops while metadata[i]==NULL instead of !=NULL: metadata of files, with the processing history, are never read (C90).
- Opening a file with a NoData value like -9999 as int8_t, as rd_no_data, rd_geotransform, rd_projection and rd_processing_history do for its header, is undefined behaviour (C90).
- loadGDAL with an offset and width 0 throws; with offsets beyond both edges it makes an array of negative size (C90).
- SaveGDAL with padding writes a file of the padded size; the georeference ignores padding and, in both save functions, rotation (C90).
- Python SaveGDAL always writes float32: types are lost, integers beyond 2^24 change, and cells can become NoData (C91).
- Python SaveGDAL of an rdarray without georeference raises after it has replaced the existing file by one of zeros (C91).
- Perlin heights can lie outside [0,1] (C92); PerlinNoise duplicates its table by inserting a vector into itself, which the standard leaves undefined.
- rd_layout_find_square.py never considers corners in the last row or column, so it answers -1 for one-row or one-column layouts (C93).
- Layout files with Windows line ends pass rd_layout_check.py, but the C++ reader keeps the carriage return in the last name of each row, turning a null tile there into a tile (C94).
- rd_no_data reads the value with stoi: "-3.4e38" sets -3, "-9999" on a byte raster sets 241 (C95).
- The display modes of rd_no_data, rd_geotransform and rd_processing_history open the file as int8: undefined behaviour for usual NoData values such as -9999; the history is never shown (C95).
- rd_compare reads beyond the end of the second raster if it is smaller, and takes int32 -1 and uint32 4294967295 as equal (C95).
- rd_raster_inspect does not check an explicit window against the raster: right of it cells of the next row are shown, below it memory outside is read (C96).
- rd_depressions_flood stores its limit in 32 bits: 4294967297 means 1, and 0.5 or 0x10 mean no limit (C97).
- rd_flow_accumulation with an unknown or disabled algorithm number writes a raster of constants, also over NoData cells, and exits with status 0 (C98).
- rd_depressions_breach converts its depth limit to the type of the raster: for integers a limit the type cannot hold, infinity for instance, is undefined behaviour even with COMPLETE, which does not use it (C99).

Noticed, not stated as theorems: misc/misc_methods.hpp and methods/dinf_methods.hpp have the same include guard, so a file
that includes both gets only the first; parallel_d8_accum numbers perimeter cells with uint16_t, so perimeters of 65536 cells
and more make loops endless; parallel_priority_flood mode "one" ignores --flipH/--flipV; OverflowInto drops amounts below 1e-6; FP_ERROR 1e-4 unused; radix heap set_non_empty(0)
shifts by UINT_MAX; Zhou2016's inner loop tests n instead of nn; rasters with zero width are undefined behaviour in
Barnes2014.hpp; the "not available" overloads of Lindsay2016 for integer types cannot be selected, so integer types run the
generic code with a truncating nextafter; FM_OCallaghan asserts on an undeclared name; exceptions thrown inside OpenMP
regions terminate the program (C42 counts them as thrown); OutletLink reference members dangle; pit_elev of
metadepressions stays infinite and the ocean's volume is NaN.

## 6. Status

See MANIFEST.json; every entry is `proved`, i.e. each theorem named there is proved in full for the model.

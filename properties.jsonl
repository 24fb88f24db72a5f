{"id": "C01", "title": "Original Priority-Flood computes the minimax drainage surface", "statement": "After PriorityFlood_Original every cell holds exactly the smallest water level L such that some path of adjacent (D8 or D4) cells leads from the cell to the raster edge without exceeding L on the input DEM; the call terminates.", "quantifier": "every raster size >=1x1, every elevation field, both topologies, every tie-breaking behaviour of the priority queue", "why_tests_cant": "The number of DEMs, paths and queue tie-breaks is unbounded; a test compares a few rasters against another implementation with the same heap.", "anchors": ["include/richdem/depressions/Barnes2014.hpp:PriorityFlood_Original", "include/richdem/common/grid_cell.hpp:GridCellZ_pq"]}
{"id": "C02", "title": "Improved Priority-Flood (plain queue + priority queue) gives the same surface", "statement": "PriorityFlood_Barnes2014 terminates and produces, cell for cell, the same minimax drainage surface as PriorityFlood_Original.", "quantifier": "every raster, both topologies, every tie-breaking behaviour of both runs", "why_tests_cant": "Equivalence of two algorithms over all DEMs and all heap tie-breaks cannot be enumerated.", "anchors": ["include/richdem/depressions/Barnes2014.hpp:PriorityFlood_Barnes2014"]}
{"id": "C03", "title": "Depression filling is monotone, idempotent, order preserving and leaves the edge alone", "statement": "Filling never lowers a cell, never changes an edge cell, filling twice equals filling once, and if one DEM is everywhere <= another so are their filled versions.", "quantifier": "every raster and pair of rasters, both topologies, every tie-break", "why_tests_cant": "Metamorphic relations over all DEMs.", "anchors": ["include/richdem/depressions/Barnes2014.hpp:PriorityFlood_Original", "include/richdem/depressions/Barnes2014.hpp:PriorityFlood_Barnes2014"]}
{"id": "C04", "title": "HasDepressions answers exactly whether filling would change the DEM", "statement": "HasDepressions returns true iff some cell lies strictly below its minimax drainage level, i.e. iff PriorityFlood would modify at least one cell; on a filled DEM it returns false.", "quantifier": "every raster, both topologies, every tie-break", "why_tests_cant": "Early-exit correctness depends on pop order on every DEM.", "anchors": ["include/richdem/depressions/Barnes2014.hpp:HasDepressions"]}
{"id": "C05", "title": "pit_mask marks exactly the cells that filling would raise", "statement": "After pit_mask every NoData cell holds 3, every other cell holds 1 if its elevation is strictly below its minimax drainage level and 0 otherwise.", "quantifier": "every raster, both topologies, every tie-break", "why_tests_cant": "Holds for all DEMs and pop orders or not at all.", "anchors": ["include/richdem/depressions/Barnes2014.hpp:pit_mask"]}
{"id": "C06", "title": "Watershed labelling covers every data cell and optionally fills", "statement": "PriorityFloodWatersheds_Barnes2014 gives every data cell a label >=1, the labels used are contiguous from 1; from each labelled cell a path of equally labelled cells with non-increasing filled elevation leads to the labels seed cell; with alter_elevations the DEM becomes the minimax surface, without it the DEM is unchanged.", "quantifier": "every raster, NoData placement, topology, tie-break", "why_tests_cant": "Label propagation depends on the whole flooding history.", "anchors": ["include/richdem/depressions/Barnes2014.hpp:PriorityFloodWatersheds_Barnes2014"]}
{"id": "C07", "title": "Priority-Flood flow directions always lead off the raster", "statement": "After PriorityFloodFlowdirs_Barnes2014 every cell whose direction is not NO_FLOW points to an in-grid neighbour or off the raster, following directions from any cell never cycles, never climbs above the cell's minimax drainage level and, unless it runs into a NoData cell, leaves the raster.", "quantifier": "every raster of width and height >=1, every elevation field, NoData placement and heap tie-break", "why_tests_cant": "Absence of cycles is a global property of all DEMs.", "anchors": ["include/richdem/depressions/Barnes2014.hpp:PriorityFloodFlowdirs_Barnes2014", "include/richdem/common/grid_cell.hpp:GridCellZk_low_pq"]}
{"id": "C08", "title": "Union-find answers exactly the equivalence generated by the unions", "statement": "After any sequence of makeSet/findSet/unionSet calls sameSet(a,b) is true iff a and b are related by the equivalence closure of the performed unions; findSet terminates and returns a member of the queried set; an id beyond the allocated range raises an error and changes nothing.", "quantifier": "every operation sequence and every id", "why_tests_cant": "Histories are unbounded; path compression rewrites the structure on queries.", "anchors": ["include/richdem/common/disjoint_dense_int_set.hpp:DisjointDenseIntSet"]}
{"id": "C09", "title": "mergeAintoB keeps B as representative", "statement": "If a and b are representatives of different sets then after mergeAintoB(a,b) exactly the two sets are joined and b represents the result; calling it without that precondition can create a parent cycle on which findSet never returns.", "quantifier": "every reachable state; every pair of ids", "why_tests_cant": "Precondition violations are only visible after further queries on specific histories.", "anchors": ["include/richdem/common/disjoint_dense_int_set.hpp:mergeAintoB"]}
{"id": "C10", "title": "LRU cache keeps distinct entries in recency order and prunes to capacity", "statement": "The cache never holds duplicates, size() is the number of entries, entries are ordered by most recent (effective) insert, prune() leaves the most recent capacity entries; re-inserting the item equal to the last inserted one is ignored, even if that item has meanwhile been evicted (so an evicted last item cannot be re-inserted).", "quantifier": "every sequence of insert/pop_back/prune/setCapacity", "why_tests_cant": "Histories are unbounded; the stale-last corner needs a particular history.", "anchors": ["include/richdem/tiled/lru.hpp:LRU"]}
{"id": "C11", "title": "xy- and i-addressing are mutually inverse and in range", "statement": "For every raster whose cell count fits 32 bits xyToI and iToxy are inverse bijections between in-grid coordinates and [0,size()), neighbour lookups getN/nToI return the index of the displaced cell or NO_I exactly when it is off the grid, and nshift(n) is the index difference for every cell whose neighbour n is in the grid; size() is the cell count below 2^31 cells and undefined from there on.", "quantifier": "every width, height, cell and direction, with 32-bit wrap-around arithmetic", "why_tests_cant": "Quantifies over all dimensions incl. overflow boundaries.", "anchors": ["include/richdem/common/Array2D.hpp:xyToI,iToxy,nToI,getN,nshift,size"]}
{"id": "C12", "title": "Raster flips and transpose", "statement": "flipVert reverses the order of rows and is an involution for every raster; flipHorz accesses memory outside every non-empty raster; transpose leaves square rasters unchanged, is right for single rows/columns, and otherwise merely rearranges the cells (wrongly for some rasters, with stale neighbour offsets).", "quantifier": "every raster size and content", "why_tests_cant": "Size-dependent off-by-one behaviour.", "anchors": ["include/richdem/common/Array2D.hpp:flipVert,flipHorz,transpose"]}
{"id": "C13", "title": "expand keeps old cells and fills new ones", "statement": "expand(w,h,v) with w,h not smaller than the old dimensions keeps every old cell at its coordinates and sets all other cells to v; smaller dimensions raise an error and change nothing.", "quantifier": "every raster and every new size", "why_tests_cant": "All sizes.", "anchors": ["include/richdem/common/Array2D.hpp:expand,resize"]}
{"id": "C14", "title": "Native cache files round-trip", "statement": "saveToCache followed by loadNative restores dimensions, offsets, NoData value, data-cell count, geotransform, projection and every cell. A file cut short after its header is loaded without any error: each cell then holds exactly the bytes that were written, missing bytes being zero, so truncation is not detected.", "quantifier": "every raster content and every crash point of the write", "why_tests_cant": "Crash points and contents are unbounded.", "anchors": ["include/richdem/common/Array2D.hpp:saveToCache,loadNative,dumpData,loadData"]}
{"id": "C15", "title": "Raster statistics and bulk edits are exact", "statement": "min/max return the extreme data value ignoring NoData, countval counts, replace changes exactly the cells equal to oldval, setEdges/setRow/setCol change exactly the addressed cells, topRow/bottomRow/leftColumn/rightColumn return the cells of that border in order; numDataCells counts non-NoData cells on first use and may be stale afterwards.", "quantifier": "every raster and value", "why_tests_cant": "All contents.", "anchors": ["include/richdem/common/Array2D.hpp:min,max,countval,replace,setRow,setCol,setEdges,getRowData,getColData,numDataCells"]}
{"id": "C16", "title": "D8 flow directions point to a steepest lower neighbour", "statement": "d8_flow_directions assigns NoData to NoData cells, an off-raster direction to edge cells, and to interior cells the direction of a neighbour of minimal elevation if some neighbour is strictly lower (preferring straight directions over diagonal ones on ties), else NO_FLOW; it never reads outside the raster.", "quantifier": "every raster >= 1x1 and every cell", "why_tests_cant": "All DEMs.", "anchors": ["include/richdem/flowmet/d8_flowdirs.hpp:d8_FlowDir,d8_flow_directions"]}
{"id": "C17", "title": "Flow directions computed from a DEM are acyclic", "statement": "Following d8_flow_directions, or the receivers of FM_OCallaghan (D8), FM_FairfieldLeymarie (D8), FM_Holmgren, FM_Freeman, FM_Quinn or FM_Tarboton, strictly descends and never revisits a cell.", "quantifier": "every raster", "why_tests_cant": "Global property of every DEM.", "anchors": ["include/richdem/flowmet/d8_flowdirs.hpp", "include/richdem/flowmet/OCallaghan1984.hpp", "include/richdem/flowmet/Holmgren1994.hpp", "include/richdem/flowmet/Freeman1991.hpp", "include/richdem/flowmet/Fairfield1991.hpp", "include/richdem/flowmet/Tarboton1997.hpp"]}
{"id": "C18", "title": "D8 flow accumulation counts upstream cells", "statement": "d8_flow_accum terminates on every flow-direction grid and, for every data cell not downstream of a flow loop, returns the number of data cells whose flow path passes through it (itself included); a cell downstream of a loop gets the number of cells whose water reaches it without touching a loop; NoData cells hold -1.", "quantifier": "every flow direction grid, also with loops elsewhere", "why_tests_cant": "All grids, including cyclic ones.", "anchors": ["include/richdem/methods/d8_methods.hpp:d8_flow_accum"]}
{"id": "C19", "title": "D8 accumulation and the thread schedule of its dependency loop", "statement": "The result of d8_flow_accum does not depend on the order in which the loop iterations run, nor on how the threads interleave as long as no two increments of the same dependency counter overlap. The increments are not synchronised, though: when two overlap, a dependency is lost and the call silently returns too small areas downstream.", "quantifier": "every flow-direction grid, every order and every interleaving of the unsynchronised read-modify-write increments", "why_tests_cant": "Schedules cannot be enumerated by running.", "anchors": ["include/richdem/methods/d8_methods.hpp:d8_flow_accum (#pragma omp parallel for)"]}
{"id": "C20", "title": "Generic flow accumulation solves the mass balance and conserves flow", "statement": "For flow proportions whose border cells send nothing (as every FM_* metric produces) FlowAccumulation terminates for every initial accumulation without out-of-range access, having set accum(c) = initial(c) + sum over donors of proportion*accum(donor) for all data cells not downstream of a flow loop; NoData cells hold ACCUM_NO_DATA; if nothing loops and every cell passes on all or nothing, the total in the cells without receivers equals the total generated. Both hold for the proportions computed by every D8 flow metric. Arrays of different size are rejected with an exception.", "quantifier": "every raster size, proportion field and initial accumulation (exact arithmetic)", "why_tests_cant": "All fields; order-independence.", "anchors": ["include/richdem/methods/flow_accumulation_generic.hpp:FlowAccumulation"]}
{"id": "C21", "title": "Flow metric proportions are a probability distribution over lower neighbours", "statement": "For FM_OCallaghan (D8), FM_FairfieldLeymarie (D8), FM_Holmgren, FM_Freeman, FM_Quinn and FM_Tarboton: NoData cells carry NO_DATA_GEN, every interior data cell with a lower data neighbour (Tarboton: a facet of two data neighbours, one of them lower) has HAS_FLOW_GEN and its positive proportions lead only to strictly lower data cells and sum to one; all other cells have NO_FLOW_GEN and no positive proportion. O'Callaghan sends everything to the first lowest neighbour; the multiple-flow metrics send to exactly the lower neighbours in the ratio of their weights; Tarboton sends down a steepest facet, giving the straight neighbour the share angle/(pi/4) and the diagonal one the rest (the reverse of the published method). The thread schedule does not matter.", "quantifier": "every raster, every random sequence, every order of processing (exact arithmetic)", "why_tests_cant": "All DEMs.", "anchors": ["include/richdem/flowmet/OCallaghan1984.hpp:FM_OCallaghan", "include/richdem/flowmet/Holmgren1994.hpp:FM_Holmgren", "include/richdem/flowmet/Freeman1991.hpp:FM_Freeman", "include/richdem/flowmet/Quinn1991.hpp:FM_Quinn", "include/richdem/flowmet/Fairfield1991.hpp:FM_FairfieldLeymarie", "include/richdem/flowmet/Tarboton1997.hpp:FM_Tarboton"]}
{"id": "C22", "title": "Where the D4 metrics route flow", "statement": "FM_D4 and FM_Rho4 select a lower of the four straight data neighbours (FM_D4: a lowest), but FlowAccumulation sends the water to another cell unless the western neighbour was selected: north becomes north-west, east becomes north, south becomes north-east; so water may be sent uphill, but it never loops.", "quantifier": "every raster", "why_tests_cant": "Direction encodings only disagree for some DEMs.", "anchors": ["include/richdem/flowmet/OCallaghan1984.hpp:FM_D4", "include/richdem/flowmet/Fairfield1991.hpp:FM_Rho4", "include/richdem/methods/flow_accumulation_generic.hpp:FlowAccumulation"]}
{"id": "C23", "title": "Flats are exactly the cells without a local gradient", "statement": "FindFlats sets -1 for NoData cells, 0 for edge cells and cells with a lower or NoData neighbour, and 1 for all other cells, and never reads off the raster.", "quantifier": "every raster", "why_tests_cant": "All DEMs.", "anchors": ["include/richdem/flats/find_flats.hpp:FindFlats"]}
{"id": "C24", "title": "The flat mask drains every drainable flat", "statement": "After GetFlatMask every flat cell connected (through cells of equal elevation) to a cell of the same elevation that has a local gradient has a neighbour of the same label with a strictly smaller mask value, or is such an outlet; labels coincide exactly on cells connected through equal elevation; the mask does not depend on the order in which edge cells are collected.", "quantifier": "every raster and every collection order of edge cells (thread schedule)", "why_tests_cant": "All DEMs and schedules.", "anchors": ["include/richdem/flats/Barnes2014.hpp:GetFlatMask,BuildAwayGradient,BuildTowardsCombinedGradient,LabelFlat,FindFlatEdges"]}
{"id": "C25", "title": "Priority queues of grid cells order NaN lowest and break ties by insertion", "statement": "GridCellZk_low/high comparison is a strict total order on (elevation,insertion number) with NaN below every number; pops from GridCellZk_low_pq come in order of elevation and, among equal elevations, insertion order (reverse for _high).", "quantifier": "every sequence of pushes and pops, NaN included", "why_tests_cant": "Orderings over all histories.", "anchors": ["include/richdem/common/grid_cell.hpp"]}
{"id": "C26", "title": "Depression-hierarchy container search with caching equals the plain search", "statement": "While computing marginal volumes the cached start point never changes which depression a cell is attributed to, for any order in which cells are visited by a thread.", "quantifier": "every hierarchy with outlets non-decreasing towards the root and every cell sequence", "why_tests_cant": "All visiting orders/schedules.", "anchors": ["include/richdem/depressions/depression_hierarchy.hpp:CachingOutletChecker,CalculateMarginalVolumes"]}
{"id": "C27", "title": "Depression volumes are exact and super-additive", "statement": "After GetDepressionHierarchy dep_vol of each depression equals the sum over its contained cells of (outlet elevation - cell elevation), is non-negative, and is at least the sum of its childrens volumes.", "quantifier": "every DEM with an ocean", "why_tests_cant": "All hierarchies.", "anchors": ["include/richdem/depressions/depression_hierarchy.hpp:CalculateMarginalVolumes,CalculateTotalVolumes"]}
{"id": "C28", "title": "The depression hierarchy is a well-formed binary forest", "statement": "Every depression other than the ocean has a parent; children have smaller ids than their meta-depression parent; meta-depressions have exactly two children which name them as parent and each other as overflow target; outlet elevations do not decrease from child to parent.", "quantifier": "every DEM, every labelling with at least one ocean cell, every order of equal-elevation outlets", "why_tests_cant": "All DEMs and hash orders.", "anchors": ["include/richdem/depressions/depression_hierarchy.hpp:GetDepressionHierarchy"]}
{"id": "C29", "title": "Moving water through the hierarchy conserves water and levels it", "statement": "MoveWaterInDepHier/OverflowInto complete without a failing assertion or out-of-range access, recursing at most as deep as there are depressions. They create no water and lose at most 1e-6 per depression (amounts below the tolerance are dropped). Afterwards no depression but the ocean holds more than its volume and a metadepression holds water only when both its children are full; a depression that is not full at the end has let none of the water of its subdepressions, nor of anything that overflows through it, escape. So rain on any terrain ends up in the water tables, the depressions and the ocean.", "quantifier": "every well-formed hierarchy with consistent volumes and every amount of water in its leaf depressions (exact arithmetic); every terrain with a coast", "why_tests_cant": "All hierarchies and water distributions.", "anchors": ["include/richdem/depressions/fill_spill_merge.hpp:OverflowInto,MoveWaterInDepHier"]}
{"id": "C30", "title": "Moving surface water into pits conserves water and is schedule independent", "statement": "MoveWaterIntoPits neither creates nor destroys water (water tables plus depression storage), keeps the water of every watershed in that watershed or its own depression, and gives the same result for every schedule of its parallel loop. Each cell first satisfies its own soil deficit and passes on the surplus of everything that arrived; without flow loops and without a cell flowing into the raster corner (0,0) no cell keeps surface water. A cell flowing into the corner delivers directly to its depression and the corner and cells below it are left unprocessed (so the documented guarantee that all wtd values are <=0 fails); a hierarchy built with D4 codes is misread.", "quantifier": "every raster of flow directions (with or without loops), labelling, water table and schedule of the dependency loop; every hierarchy computed by GetDepressionHierarchy<D8>", "why_tests_cant": "All grids and schedules.", "anchors": ["include/richdem/depressions/fill_spill_merge.hpp:MoveWaterIntoPits"]}
{"id": "C31", "title": "Filling a depression spreads exactly its water at one level", "statement": "DetermineWaterLevel returns a level at which the water above the flooded cells plus the amount absorbed by the sill is the given volume (exactly, unless the volume is within 1e-6 of the one under the sill). A FillDepressions call that completes conserves water up to 1e-6 per cell and changes only the depression and its outlet; it completes, leaving a lake that covers every cell of the depression below its level, whenever the water fits, no cell holds water yet, the water suffices to join the subdepressions and amounts are not within 1e-6 of the room (without the last two conditions it can abort).", "quantifier": "every terrain, labelling, water table, volume and tie-breaking of the priority queue (exact arithmetic)", "why_tests_cant": "All real inputs and every terrain; the flooding loop is unbounded.", "anchors": ["include/richdem/depressions/fill_spill_merge.hpp:DetermineWaterLevel,DepressionVolume,BackfillDepression,FillDepressions"]}
{"id": "C32", "title": "When wrapping external memory frees it", "statement": "A ManagedVector wrapping caller-owned memory deallocates it exactly when something is assigned to the wrapping object (or after a self-move); programs avoiding this never free caller memory, never free twice and never leak, and copies are deep.", "quantifier": "every sequence of construct/copy/move/assign/resize/clear/destroy operations", "why_tests_cant": "Ownership histories are unbounded.", "anchors": ["include/richdem/common/ManagedVector.hpp:ManagedVector", "include/richdem/common/Array2D.hpp:clear"]}
{"id": "C33", "title": "Neighbour tables are consistent", "statement": "d8_inverse/d4_inverse invert direction offsets, neighbour relations are symmetric, every nonzero offset within the 3x3 block occurs exactly once, d8_arcgis is injective.", "quantifier": "all directions", "why_tests_cant": "Finite, but used by every algorithm; proved by exhaustive case analysis.", "anchors": ["include/richdem/common/constants.hpp"]}
{"id": "C34", "title": "Size-limited filling", "statement": "PriorityFlood_Barnes2014_max_dep raises cells only to their minimax drainage level or leaves them unchanged; each depression (pool of connected below-level cells) is filled completely or not at all; no depression of more than max_dep_size cells is filled; depressions sharing the spill cell from which they were entered are counted together, and a group is filled exactly if it has at most max_dep_size cells.", "quantifier": "every raster, threshold, topology, tie-break", "why_tests_cant": "All DEMs.", "anchors": ["include/richdem/depressions/Barnes2014.hpp:PriorityFlood_Barnes2014_max_dep"]}
{"id": "C35", "title": "Epsilon filling leaves a strictly draining surface", "statement": "After PriorityFloodEpsilon_Barnes2014 every interior data cell has a path of strictly decreasing elevation to the edge or to NoData, no cell is lowered and NoData cells are unchanged.", "quantifier": "every raster (with an exact successor function), both topologies, every tie-break", "why_tests_cant": "All DEMs.", "anchors": ["include/richdem/depressions/Barnes2014.hpp:PriorityFloodEpsilon_Barnes2014"]}
{"id": "C36", "title": "Union-find queries have logarithmic depth", "statement": "If only makeSet/unionSet/findSet/sameSet are used, findSet follows at most log2(number of sets) links, as the header promises, so its recursion needs at most 1+log2(N) stack frames.", "quantifier": "every history, every id", "why_tests_cant": "Worst-case depth over all histories.", "anchors": ["include/richdem/common/disjoint_dense_int_set.hpp:unionSet,findSet"]}
{"id": "C37", "title": "Epsilon flat resolution", "statement": "ResolveFlatsEpsilon on a floating point DEM raises exactly the interior cells of flats that have an outlet (flat cells and the interior outlets themselves), each by its flat-mask number of representable steps, and leaves every other cell unchanged; afterwards every flat cell of such a flat has a strictly lower neighbour of formerly the same elevation, unless it reached infinity. On an integer DEM (accepted by the API) the same call lowers positive elevations and so inverts the intended gradient.", "quantifier": "every raster, every schedule of the parallel loops", "why_tests_cant": "All DEMs and schedules.", "anchors": ["include/richdem/flats/Barnes2014.hpp:ResolveFlatsEpsilon_Barnes2014", "include/richdem/flats/flats.hpp"]}
{"id": "C38", "title": "Flat-resolved D8 flow directions", "statement": "barnes_flat_resolution_d8 gives every data cell with a local gradient its D8 direction, NoData cells 255 and cells of flats without outlet 0; every other flat cell points to a neighbour of the same flat with a strictly smaller mask increment, so that the directions never loop and every drainable flat is drained to one of its outlets. With alteration of the DEM, the drained flat cells have a direction on the altered DEM.", "quantifier": "every raster, with or without alteration, every schedule of the parallel loops", "why_tests_cant": "All DEMs and schedules.", "anchors": ["include/richdem/flats/flat_resolution.hpp:barnes_flat_resolution_d8,resolve_flats_barnes,d8_flow_flats,d8_masked_FlowDir,flat_mask,find_flat_edges,label_this,d8_flats_alter_dem"]}
{"id": "C39", "title": "Depression hierarchy: watersheds and flow directions", "statement": "GetDepressionHierarchy relabels the raster into watersheds: ocean cells keep label 0, every pit founds its own leaf depression (label 1, 2, ...) recorded with its cell and elevation, every cell carries the label of the ocean or of one leaf, and following the written flow directions from any cell leads, without ever going up or changing label, to an ocean cell or to the pit of its label.", "quantifier": "every DEM and topology, every valid ocean marking, every order in which equal elevations leave the priority queue", "why_tests_cant": "All DEMs and queue orders.", "anchors": ["include/richdem/depressions/depression_hierarchy.hpp:GetDepressionHierarchy"]}
{"id": "C40", "title": "Depression hierarchy: outlets are lowest passes", "statement": "For every depression other than the ocean (leaf or metadepression) out_elev/out_cell is the lowest pass between the cells draining into it and all other cells: no pair of neighbouring cells across its rim has a smaller maximum elevation, and out_cell is the higher cell of such a pair.", "quantifier": "every DEM, topology, valid ocean marking, queue order and order of equal outlets", "why_tests_cant": "All DEMs and hash orders.", "anchors": ["include/richdem/depressions/depression_hierarchy.hpp:GetDepressionHierarchy,Outlet,OutletHash"]}
{"id": "C41", "title": "Depression hierarchy: outlet elevations are escape levels", "statement": "Water standing at level L at a cell can reach the ocean over cells not above L exactly if L is at least the cell elevation and the outlet elevation of every depression containing the cell; so the level at which a cell drains is the maximum of its elevation and the outlet elevation of the outermost depression around it, and cells of the ocean watershed drain freely.", "quantifier": "every DEM, topology, valid ocean marking, queue order and order of equal outlets, every cell and level", "why_tests_cant": "All DEMs and paths.", "anchors": ["include/richdem/depressions/depression_hierarchy.hpp:GetDepressionHierarchy"]}
{"id": "C42", "title": "Depression hierarchy: accepted inputs", "statement": "GetDepressionHierarchy throws exactly if some initial label is neither OCEAN nor NO_DEP or no ocean cell has a land neighbour; on all other inputs it completes: no assertion fails, the radix heap is never given a key below the last one extracted, nothing is accessed out of range, all loops end.", "quantifier": "every raster of fewer than 2^31 cells, every labelling, queue order, outlet order and thread partition", "why_tests_cant": "All inputs.", "anchors": ["include/richdem/depressions/depression_hierarchy.hpp:GetDepressionHierarchy,CalculateMarginalVolumes,CalculateTotalVolumes"]}
{"id": "C43", "title": "FillSpillMerge leaves water at rest", "statement": "FillSpillMerge on the output of GetDepressionHierarchy<D8> with ocean cells of flow direction 0 completes (no failing assertion, no out-of-range access) for every rain on saturated ground. Afterwards the water is at rest: no cell holds water whose surface is above that of a neighbour, ocean cells hold none, and no water stands above the level at which it would find a way to the ocean. The water_vol records are levelled and agree with the water on the cells, a depression that is not full has kept all the rain that fell into it, and rain = water on the land + water in the ocean, all up to 1e-6 per cell and depression. Exception: a cell flowing into raster corner (0,0). If the queue popped equal elevations in another order than the radix heap does, an assertion could fail.", "quantifier": "every DEM with a coast, every rain, every schedule of the parallel loops and order of equal outlets", "why_tests_cant": "All terrains and rains; the postcondition is global.", "anchors": ["include/richdem/depressions/fill_spill_merge.hpp:FillSpillMerge,FindDepressionsToFill,FillDepressions,DetermineWaterLevel,MoveWaterIntoPits,MoveWaterInDepHier"]}
{"id": "C44", "title": "Flat bottoms are single depressions", "statement": "Because the radix heap returns equal elevations last-in-first-out, GetDepressionHierarchy makes a flat bottom one leaf depression: a cell at the lowest level of its watershed has no neighbour at or below its level in another watershed except the ocean's, and every depression that is not linked to the ocean has a positive volume. A queue with another order of equal elevations would split flats into zero-volume depressions.", "quantifier": "every DEM, topology, ocean marking, outlet order and thread partition", "why_tests_cant": "All DEMs.", "anchors": ["include/richdem/depressions/depression_hierarchy.hpp:GetDepressionHierarchy", "include/richdem/common/radix_heap.hpp:pair_radix_heap"]}
{"id": "C45", "title": "The radix heap is a monotone priority queue", "statement": "Every history of emplace/push, top, pop, min, top_values, extract_top_values/pop_top_values and clear on a pair_radix_heap returns the answers of a priority queue that returns, among the items of lowest key, the one pushed last, as long as no key below the last key looked at is pushed and an empty heap is not looked into; the first call violating this fails an assertion. radix_heap (without values) can return a stale min().", "quantifier": "every history of calls, every key width, all keys", "why_tests_cant": "All histories.", "anchors": ["include/richdem/common/radix_heap.hpp:pair_radix_heap,radix_heap,bucket_flags,find_bucket_impl"]}
{"id": "C46", "title": "Radix heap keys keep their order", "statement": "The key encoders are order isomorphisms: encode is strictly monotone and decode(encode(x)) = x for all signed integers and all floats and doubles that are not NaN, infinities included. Exception: -0.0 is ordered before the equal +0.0, so that pushing -0.0 after +0.0 was looked at fails an assertion (a float DEM with both zeros can abort GetDepressionHierarchy).", "quantifier": "every pair of keys of every signed integer width and IEEE format", "why_tests_cant": "All pairs of keys.", "anchors": ["include/richdem/common/radix_heap.hpp:encoder"]}
{"id": "C47", "title": "FillDepressions (Zhou2016) fills exactly", "statement": "FillDepressions and PriorityFlood_Zhou2016 raise every cell to its minimax drainage level, i.e. compute the same surface as the textbook algorithm, although Zhou2016 looks only at a part of the slope cells through its priority queue. The program terminates for every input. Interior NoData cells are filled like any other cell.", "quantifier": "every non-empty raster, DEM, topology (FillDepressions) and order of equal elevations in the queue", "why_tests_cant": "All terrains; the result is a global minimum over paths.", "anchors": ["include/richdem/depressions/Zhou2016.hpp:PriorityFlood_Zhou2016,ProcessTraceQue_onepass,ProcessPit_onepass", "include/richdem/depressions/depressions.hpp:FillDepressions"]}
{"id": "C48", "title": "Wei2018 fills exactly around NoData", "statement": "PriorityFlood_Wei2018 leaves NoData cells unchanged and raises every data cell to the smallest level at which water can leave over data cells through a data cell on the raster edge or next to a NoData cell. It terminates and its unchecked neighbour accesses never leave the raster. Without NoData cells the result is that of FillDepressions.", "quantifier": "every raster (empty ones included), DEM, NoData value and order of equal elevations in the queue", "why_tests_cant": "All terrains and NoData patterns.", "anchors": ["include/richdem/depressions/Wei2018.hpp:PriorityFlood_Wei2018,InitPriorityQue,ProcessTraceQue,ProcessPit"]}
{"id": "C49", "title": "BreachDepressions drains every cell", "statement": "BreachDepressions / CompleteBreaching_Lindsay2016 leave a surface on which water runs from every data cell, never uphill, to the raster edge or to NoData. NoData cells are unchanged. The surface differs from the input only by raising single-cell pits to their lowest neighbour and by lowering cells to the level of an undrained cell p along a path from p that nowhere exceeds the lowest level at which water can leave p. No cell stands above its depression-filling level. The call terminates and never touches memory outside the raster.", "quantifier": "every raster, DEM, NoData value, topology and order of equal elevations in the queue", "why_tests_cant": "All terrains and tie orders; drainage is a global property.", "anchors": ["include/richdem/depressions/Lindsay2016.hpp:CompleteBreaching_Lindsay2016", "include/richdem/depressions/depressions.hpp:BreachDepressions"]}
{"id": "C50", "title": "Lindsay2016 complete breaching, with and without gradients", "statement": "Lindsay2016 with COMPLETE_BREACHING: without epsilon gradients as C49; with epsilon gradients every data cell drains strictly downhill, lowered cells lie on a least-cost path from an undrained cell, no cell stands above its filling level, and NoData cells are unchanged.", "quantifier": "every raster, DEM with NoData below all elevations (with gradients), tie order", "why_tests_cant": "All terrains and tie orders.", "anchors": ["include/richdem/depressions/Lindsay2016.hpp:Lindsay2016"]}
{"id": "C51", "title": "Lindsay2016 selective and constrained breaching", "statement": "Every mode terminates, stays inside the raster and leaves NoData cells. With fill_depressions every inner cell that had no lower neighbour drains afterwards (strictly downhill with gradients); selective breaching without filling lowers cells only to the level of an undrained cell on its least-cost way out. Two documented promises fail and are refuted: that whatever is not breached is filled (cells not reached before the last pit can become new undrained cells), and that constrained breaching digs at most maxdepth (it digs the depth of the path, also below the pit).", "quantifier": "every raster, DEM, mode, flags, limits and tie order", "why_tests_cant": "All terrains, limits and tie orders.", "anchors": ["include/richdem/depressions/Lindsay2016.hpp:Lindsay2016"]}
{"id": "C52", "title": "Tiled depression filling equals filling the whole raster", "statement": "parallel_priority_flood on a raster cut into tiles (none missing) ends without an error, and the output tiles put together are the whole raster with every cell at its minimax drainage level - the result of filling the raster in one piece.", "quantifier": "every raster size, tile size (ragged last tiles included), elevation data, mirrored storage, tie order in every queue, number of consumers, order of replies, retention evict or retain", "why_tests_cant": "All tilings, terrains and message orders; depressions may span any number of tiles.", "anchors": ["programs/parallel_priority_flood/main.cpp:FirstRound,Calculations,HandleEdge,HandleCorner,SecondRound,Producer,Consumer", "programs/parallel_priority_flood/Zhou2016pf.hpp:Zhou2015Labels"]}
{"id": "C53", "title": "Missing tiles in tiled depression filling", "statement": "With tiles missing from the layout (at least one present) the program writes exactly the tiles there are, and each cell stands at the lowest level from which water can leave over cells that are there. Water leaves at the border of the layout and across sides shared with a missing tile - but, as the code stands, only if that tile is not in the first row or column of the layout; the claim for all missing tiles is refuted. With all tiles missing behaviour is undefined.", "quantifier": "every layout, pattern of missing tiles, data, tie order and schedule", "why_tests_cant": "All layouts and patterns.", "anchors": ["programs/parallel_priority_flood/main.cpp:Preparer (edge flags of null neighbours)", "programs/parallel_priority_flood/Zhou2016pf.hpp:Zhou2015Labels"]}
{"id": "C54", "title": "Tiled depression filling does not depend on the schedule or on where tiles are kept", "statement": "Two runs on the same data give the same output whatever the numbers of consumers, orders of replies, orders of equal elevations and whichever of the retention modes evict and retain they use. Retention in a cache directory always fails in the second round (refuted for it): SaveToCache writes both arrays to the same file.", "quantifier": "every layout and data, pairs of schedules and retention modes", "why_tests_cant": "All schedules.", "anchors": ["programs/parallel_priority_flood/main.cpp:SaveToRetain,LoadFromRetain,SaveToCache,LoadFromCache,LoadFromEvict"]}
{"id": "C55", "title": "Tiled flow accumulation equals accumulating the whole raster", "statement": "parallel_d8_accum on a raster of D8 flow directions cut into tiles (none missing) ends without an error, and on every cell not below a loop of flow directions the output tiles hold the accumulation that d8_flow_accum computes on the raster in one piece: the number of cells upstream. NoData cells hold -1.", "quantifier": "every raster size, tile size (ragged last tiles of at least two rows, perimeters that 16 bits can number), flow directions whose loops do not swallow water from a border between tiles, number of consumers, order of replies and retention mode", "why_tests_cant": "All tilings, directions and message orders; a flow path may cross any number of tiles any number of times.", "anchors": ["programs/parallel_d8_accum/main.cpp:FirstRound,FlowAccumulation,FollowPath,FollowPathAdd,Producer,SecondRound,Consumer,GridPerimToArray,xyToSerial,serialToXY"]}
{"id": "C56", "title": "Missing tiles in tiled flow accumulation", "statement": "With tiles missing from the layout parallel_d8_accum writes exactly the tiles there are, and accumulations are those of the raster in which missing tiles hold NoData - provided no two tiles touch at a corner while both other tiles at that corner are missing; there, flow across the corner is lost and the claim is refuted.", "quantifier": "every layout, pattern of missing tiles, directions, schedule and retention mode", "why_tests_cant": "All layouts and patterns.", "anchors": ["programs/parallel_d8_accum/main.cpp:Producer,DownstreamCell"]}
{"id": "C57", "title": "Inputs on which tiled flow accumulation does not deliver", "statement": "Tiles stored mirrored left to right, tiles of one row and direction codes outside 0..8 make the program access memory it must not, so that nothing is delivered; a code outside 0..8 is in general not reported by the check meant for it. Water from a border between tiles that runs into a loop inside a tile is reported as an error; loops across tiles are not reported (refuted).", "quantifier": "every such layout and raster, schedule and retention mode", "why_tests_cant": "All layouts, rasters and schedules.", "anchors": ["programs/parallel_d8_accum/main.cpp:VerifyInputSanity,LoadFromEvict,GridPerimToArray,FollowPath", "include/richdem/common/Array2D.hpp:flipHorz"]}
{"id": "C58", "title": "Numbering of the perimeter of a tile", "statement": "The perimeter serial numbers and the perimeter cells of a tile are in one-to-one correspondence, conversion in both directions is inverse, and the perimeter array lists the cells in the order of the numbers. In tiles of one column this fails (refuted).", "quantifier": "every tile width and height from 2", "why_tests_cant": "All widths, heights and numbers.", "anchors": ["programs/parallel_d8_accum/main.cpp:xyToSerial,serialToXY,GridPerimToArray"]}
{"id": "C59", "title": "Bucket fill paints exactly what the paint reaches", "statement": "BucketFill from given seed cells, and BucketFillFromEdges, terminate, set to the new value exactly the cells reachable from the seeds through adjacent cells that hold the checked value and are not painted yet, and leave all other cells as they are. A seed outside the raster is undefined behaviour.", "quantifier": "every raster, seed list (duplicates included), checked and set value, both topologies", "why_tests_cant": "All rasters and seed lists; regions of any shape.", "anchors": ["include/richdem/misc/misc_methods.hpp:BucketFill,BucketFillFromEdges"]}
{"id": "C60", "title": "The fill-spill-merge program end to end", "statement": "rd_fill_spill_merge takes as sea the cells without data and those connected with the edge of the raster at the ocean level. Without a coast it fails with an error. Otherwise (corner cell (0,0) in the sea or higher than its neighbours) it ends, with the rain on the land settled: lakes level, nowhere higher than their way to the sea, all water accounted for, rain on the sea ignored. The surface it saves is the water added to the elevation.", "quantifier": "every terrain, NoData pattern, ocean level, non-negative water, thread schedule and order of equal outlets", "why_tests_cant": "All terrains and schedules.", "anchors": ["apps/rd_fill_spill_merge.cpp:main", "include/richdem/misc/misc_methods.hpp:BucketFillFromEdges", "include/richdem/depressions/fill_spill_merge.hpp:FillSpillMerge"]}
{"id": "C61", "title": "Perimeters", "statement": "Perimeter with SQUARE_EDGE is the total length of the sides of data cells at which the data ends, whatever the threads do. With CELL_COUNT it is the number of data cells on the edge of the raster - that it counts data cells next to NoData is refuted.", "quantifier": "every raster of fewer than 2^31 cells, NoData pattern, cell size and thread schedule", "why_tests_cant": "All rasters and schedules.", "anchors": ["include/richdem/misc/misc_methods.hpp:Perimeter"]}
{"id": "C62", "title": "Conversion of direction codes of other programs", "statement": "Converting ArcGIS or TauDEM directions keeps for every cell the direction it points to (and no flow as no flow); any other value makes the conversion fail. TauDEM NoData cells stay; ArcGIS rasters with NoData cells are refused (that they are accepted is refuted).", "quantifier": "every raster of codes", "why_tests_cant": "All rasters.", "anchors": ["include/richdem/misc/conversion.hpp:convert_arc_flowdirs_to_richdem_d8", "apps/rd_taudem_d8_to_richdem_d8.cpp:Master"]}
{"id": "C63", "title": "Surface area", "statement": "dem_surface_area never fails and returns the area of the surface through the elevations: eight triangles for every data cell, taken as level towards cells without data. It is never less than the planar area of the data cells, equals it on level terrain, and on a tilted plane is exact for every cell surrounded by data. The schedule of the threads does not matter.", "quantifier": "every raster of real elevations, NoData pattern, z scale, cell size and thread schedule", "why_tests_cant": "All real elevations; the triangle inequality behind Heron's formula must hold for every terrain.", "anchors": ["include/richdem/misc/misc_methods.hpp:dem_surface_area"]}
{"id": "C64", "title": "Slope and aspect", "statement": "At every data cell TA_slope_riserun is the steepness of the plane that fits the cell and its eight neighbours best (Horn's weights; where there is no data the surface counts as level), TA_slope_percentage is 100 times that, TA_slope_radians and TA_slope_degrees are its angle. TA_aspect is the compass bearing in [0,360) in which that plane falls. NoData cells hold the NoData value of the output, and with a negative one no other cells do. That flat cells have aspect -1, as documented, is refuted: they have 270. The schedule of the threads does not matter.", "quantifier": "every raster of real elevations, NoData pattern, z scale, cell sizes and thread schedule", "why_tests_cant": "All real elevations.", "anchors": ["include/richdem/methods/terrain_attributes.hpp:TerrainSetup,Terrain_Aspect,Terrain_Slope_RiseRun,Terrain_Slope_Percent,Terrain_Slope_Radian,Terrain_Slope_Degree,TerrainProcessor,TA_slope_riserun,TA_aspect"]}
{"id": "C65", "title": "Curvature", "statement": "With square cells, TA_curvature is -100 times the Laplacian at the cell of the Zevenbergen-Thorne polynomial through its neighbourhood, TA_profile_curvature 100 times the second derivative up the slope and TA_planform_curvature -100 times the second derivative along the contour; both are 0 on level cells, and on others their difference is the curvature. Refuted: that the difference is the curvature everywhere (not on peaks), that it is right for rectangular cells, that data cells never hold the default NoData value.", "quantifier": "every raster of real elevations, NoData pattern, z scale and thread schedule", "why_tests_cant": "All real elevations.", "anchors": ["include/richdem/methods/terrain_attributes.hpp:TerrainCurvatureSetup,Terrain_Curvature,Terrain_Planform_Curvature,Terrain_Profile_Curvature,TA_curvature"]}
{"id": "C66", "title": "Stream power and wetness indices", "statement": "TA_SPI and TA_CTI give the logarithm of the product, resp. quotient, of the specific catchment area and the slope plus 0.001; NoData of either input gives NoData; rasters of different sizes are refused. The indices grow with the area, SPI grows and CTI falls with the slope. That a data cell never has the value -1 of NoData, as a comment claims, is refuted.", "quantifier": "every pair of rasters and thread schedule", "why_tests_cant": "All real inputs.", "anchors": ["include/richdem/methods/terrain_attributes.hpp:TA_SPI,TA_CTI"]}
{"id": "C67", "title": "A writable tiled array is one big raster", "statement": "An array made by A2Array2D(template, other, cachesize) from an array opened by layout file behaves, under every sequence of reads, writes, isNoData, setAll (and setNoData before the first eviction), like one raster that starts with 0 everywhere and NoData -1: tiles moved out to cache files and back lose nothing, whatever the cache size (unlimited or at least 1), whatever files lie in the cache directory, whatever memory held. Missing tiles read as NoData and ignore writes. Refuted: setNoData works after evictions; tiles with equal base names are kept apart. Undefined: any access with cache size 0, to an array made with explicit sizes, or to one modelled on an unused writable array.", "quantifier": "every layout, tile size, cache size, cell type, history of calls and content of uninitialised memory", "why_tests_cant": "All histories of calls; the failure depends on the eviction history.", "anchors": ["include/richdem/tiled/A2Array2D.hpp:A2Array2D,_LoadTile,operator(),setAll,setNoData,isNoData", "include/richdem/common/Array2D.hpp:saveToCache,loadNative"]}
{"id": "C68", "title": "Which tiles are in memory", "statement": "After every history the tiles in memory are exactly the cachesize most recently used ones (so never more than cachesize), and getEvictions is the number of uses of a tile not in memory minus the number of tiles in memory. This supposes the uninitialised member \"last\" of the LRU does not happen to equal a tile; without this the bound is refuted.", "quantifier": "every layout, cache size and history of calls", "why_tests_cant": "All histories.", "anchors": ["include/richdem/tiled/A2Array2D.hpp:_LoadTile,getEvictions", "include/richdem/tiled/lru.hpp:LRU"]}
{"id": "C69", "title": "A layout opened for reading shows its files", "statement": "Opening a layout whose tiles have equal size succeeds; every sequence of reads returns the cells of the files, tiles with positive pixel height (or with flipV, the others) turned upside down, whatever the cache size and order. Writes to such an array are lost on eviction (that they are kept is refuted). The first access to a tile with negative pixel width, or any with flipH, is undefined.", "quantifier": "every layout, files, flip options, cache size and history of reads", "why_tests_cant": "All histories.", "anchors": ["include/richdem/tiled/A2Array2D.hpp:A2Array2D,_LoadTile,operator(),isNoData"]}
{"id": "C70", "title": "Merging rasters by layout", "statement": "rd_merge_rasters_by_layout (saveUnifiedGDAL) writes the whole raster with NoData in the gaps if the first tile exists and all NoData values agree, where a gap counts with NoData value -1; otherwise it throws. That layouts with gaps and equal NoData values can be merged is refuted.", "quantifier": "every layout, files, flip options and cache size", "why_tests_cant": "All layouts.", "anchors": ["apps/rd_merge_rasters_by_layout.cpp:Master", "include/richdem/tiled/A2Array2D.hpp:saveUnifiedGDAL"]}
{"id": "C71", "title": "Saving a tiled array tile by tile", "statement": "saveGDAL of a tiled array saves nothing: whatever was done before, it has undefined behaviour at the first existing tile, because the literal 0 is passed where the message string is expected (that it writes the tiles is refuted). With that argument left out, it writes for every existing tile one raster, in the order of the layout, named after the input tile, with the current cells, NoData value, and with the orientation of the input file; if no tile is stored bottom up the array can be used further as if nothing had happened, otherwise (refuted) the cells read afterwards differ.", "quantifier": "every layout, cache size, history before the save and calls after it", "why_tests_cant": "All histories.", "anchors": ["include/richdem/tiled/A2Array2D.hpp:saveGDAL", "programs/tiled_flat_resolution/main.cpp:Master"]}
{"id": "C72", "title": "A layout file is read as the grid it shows", "statement": "A LayoutfileReader delivers, with next(), every position of the grid exactly once, row by row from left to right, with file name (spaces around it removed), base name, full path relative to the layout file, grid position, newRow and isNullTile; a row that is one field short is completed by a blank, and nothing after the last comma counts as no field. A file that cannot be opened or has a row more than one field short is refused by an exception. Refuted (undefined behaviour instead): an empty file, a file in which no row has a field, next() after it has returned false.", "quantifier": "every text as contents of the layout file", "why_tests_cant": "All texts: any number and length of lines, fields, blanks.", "anchors": ["include/richdem/common/Layoutfile.hpp:LayoutfileReader,next,newRow,getFilename,getBasename,getFullPath,getGridLocName,isNullTile,getX,getY,trimStr"]}
{"id": "C73", "title": "A layout written and read back is the same", "statement": "Writing rows of equal length with LayoutfileWriter (addRow before each row, addEntry for each tile, blank for null tiles) and reading the file gives the same arrangement, each name without its directory and surrounding spaces, if some row has a name in the last column and the names have no comma or end of line. Otherwise (refuted) the last column is lost, and a single such column makes the first next() undefined.", "quantifier": "every grid of names", "why_tests_cant": "All grids.", "anchors": ["include/richdem/common/Layoutfile.hpp:LayoutfileWriter,addRow,addEntry,LayoutfileReader"]}
{"id": "C74", "title": "Base names and the name of a written layout", "statement": "The base name of a tile is its file name without directory and extension, and LayoutfileWriter writes to the given name with the extension replaced by \"layout\", in the same directory, if the file name has an extension or there is no period in the directory. Otherwise (refuted) the base name is empty, and the layout is written outside of the directory.", "quantifier": "every file name", "why_tests_cant": "All strings.", "anchors": ["include/richdem/common/Layoutfile.hpp:GetBaseName,getBasename,LayoutfileWriter"]}
{"id": "C75", "title": "The tiled programs leave a correct output layout", "statement": "parallel_d8_accum and parallel_priority_flood in \"many\" mode, with output name A%nB (B without slash and with an extension): every tile gets its own input and output file, no two tiles share an output file, null tiles stay null, and the layout file left behind, when read, gives exactly the output files in the arrangement of the input layout (if the last column is not empty). Refuted: distinct outputs with %f; a usable layout with a slash after %n; anything at all if the input layout has the name of the output layout (it is emptied before it is read).", "quantifier": "every input layout and output name", "why_tests_cant": "All layouts and names.", "anchors": ["programs/parallel_d8_accum/main.cpp:Preparer", "programs/parallel_priority_flood/main.cpp:Preparer", "include/richdem/common/Layoutfile.hpp:LayoutfileWriter"]}
{"id": "C76", "title": "D-infinity directions follow the steepest descent", "statement": "dinf_flow_directions gives NoData cells -1, border cells a direction that leaves the raster, and every other cell a direction in [0,2 pi) in which the terrain, interpolated by the eight triangles around the cell, falls at least as steeply as in any other direction, or 0 if it falls nowhere. The result does not depend on the threads. Every cell that receives a share is strictly lower, so the directions have no loop. Refuted: that 0 (NO_FLOW) means there is no descent (steepest descent due east, and the last column, also give 0).", "quantifier": "every elevation raster, NoData value and thread schedule", "why_tests_cant": "All real elevations.", "anchors": ["include/richdem/flowmet/dinf_flowdirs.hpp:dinf_FlowDir,dinf_flow_directions"]}
{"id": "C77", "title": "D-infinity upslope area counts what drains through a cell", "statement": "dinf_upslope_area, for directions in [0,2 pi] or NoData, terminates without failing an assertion; the area of a data cell is 1 plus the shares its donors send to it; each cell sends its whole area to one or two neighbours; NoData cells get -1. Cells fed by loops get only what loop-free donors send. Refuted: cells without direction and donors have area 0 instead of 1, so on a plane falling due east all areas inside are 0; the neighbour closer to the direction gets the smaller share.", "quantifier": "every raster of directions, with and without loops, and every order of the dependency loop", "why_tests_cant": "All rasters and graphs.", "anchors": ["include/richdem/methods/dinf_methods.hpp:where_do_i_flow,area_proportion,dinf_upslope_area"]}
{"id": "C78", "title": "Resolving flats for D-infinity drains them without creating loops", "statement": "resolve_flats_barnes_dinf completes on every raster; cells with a D-infinity direction, border cells, NoData cells and cells of flats without outlet keep what dinf_flow_directions gave them; every other cell gets the steepest descent of the flat increments over the triangles inside its flat, or the direction of one neighbour, and all the neighbours that receive water lie in the same flat and have smaller increments. Hence the directions never form loops (the question left open in the source), upslope areas are complete, and the water of a drainable flat reaches an outlet or is stuck where the result is due east. Refuted: flats whose outlet drains due east stay unresolved, because the angle 0 reads as no flow.", "quantifier": "every integer elevation raster, and all schedules of the parallel loops", "why_tests_cant": "All rasters; loops may be arbitrarily long.", "anchors": ["include/richdem/flats/flat_resolution_dinf.hpp:dinf_masked_FlowDir,dinf_flow_flats,resolve_flats_barnes_dinf"]}
{"id": "C79", "title": "A 3D array is a raster with nine values per cell", "statement": "After any sequence of calls within the documented ranges, an Array3D returns what a function from (column,row,neighbour) to values would: xyn- and i-addressing name the same values, different (x,y,n) never share memory, a write changes exactly one value, resize and setAll set every value, wrapped memory is used in place and refuses another size. operator== is equality of dimensions and values, not of NoData (documented: refuted), and never ends from 2^32 stored values on. numDataCells (refuted) counts values among the first width*height stored ones, once. NoData is uninitialised until set; a cleared array keeps its dimensions, so every access is out of bounds.", "quantifier": "all element types, dimensions, initial memory contents and histories of calls", "why_tests_cant": "Histories and sizes are unbounded; sizes beyond 2^32 values cannot be tested.", "anchors": ["include/richdem/common/Array3D.hpp:Array3D,xyToI,operator==,isNoData,setNoData,setAll,resize,countDataCells,numDataCells,operator(),getIN,clear", "include/richdem/common/ManagedVector.hpp:resize"]}
{"id": "C80", "title": "rd_d8_flowdirs and rd_flood_for_flowdirs drain every cell", "statement": "The directions written by rd_d8_flowdirs are over the minimax-filled surface: NoData exactly where the filled raster is NoData, a direction in every other cell, never leading upwards, without loops, and from every data cell leading off the raster or into NoData. Accumulating flow over them gives every data cell its upstream count, and the cells where water leaves account for every data cell exactly once. rd_flood_for_flowdirs gives the same for north-up rasters; for rows running south to north it turns the cells over but not the codes (refuted: directions may lead uphill), for columns running east to west it is undefined.", "quantifier": "every integer DEM with at least one cell, every tie-breaking of the queue, every schedule of the parallel loops", "why_tests_cant": "All rasters; paths and flats are arbitrarily long; all schedules.", "anchors": ["apps/rd_d8_flowdirs.cpp:PerformAlgorithm", "apps/rd_flood_for_flowdirs.cpp:PerformAlgorithm", "include/richdem/depressions/Barnes2014.hpp:PriorityFlood_Barnes2014", "include/richdem/flats/flat_resolution.hpp:barnes_flat_resolution_d8", "include/richdem/methods/d8_methods.hpp:d8_flow_accum"]}
{"id": "C81", "title": "What rd_loop_check reports", "statement": "rd_loop_check marks a cell exactly when the raster has at least ten columns and the flow path of the cell is at least as many moves long as there are columns. Hence, from ten columns on, no mark means that there are no loops. Refuted: that loops are always marked (below ten columns nothing is ever printed) and that marks mean loops (winding paths are marked).", "quantifier": "every raster of direction codes", "why_tests_cant": "All rasters and path lengths.", "anchors": ["apps/rd_loop_check.cpp:FollowPath,PerformAlgorithm"]}
{"id": "C82", "title": "Flow accumulation in IEEE arithmetic", "statement": "With float proportions and a double accumulation array, FlowAccumulation always finishes, and in every data cell that no loop drains into it leaves the weight of the cell to which the contributions of the donors have been added one at a time, each donor once, each product and each sum rounded to nearest. The result differs from the exact water balance by at most 18*L*2^-53 relative, where L is the length of the longest flow path into the cell (weights and totals between 2^-800 and 2^900). With single-receiver metrics and integer weights there is no error at all while the upstream total is below 2^53; in particular with unit weights the value is the exact number of upstream cells. Beyond 2^53 units are lost (refuted).", "quantifier": "every array of finite float proportions with a quiet border, every array of double weights, every raster size", "why_tests_cant": "All networks, all float values, all orders in which donors arrive; the error bound quantifies over arbitrarily long paths.", "anchors": ["include/richdem/methods/flow_accumulation_generic.hpp:FlowAccumulation", "include/richdem/common/Array3D.hpp:getIN,isNoData"]}
{"id": "C83", "title": "Python: in_place=True and in_place=False", "statement": "FillDepressions, BreachDepressions and ResolveFlats with in_place=False return a new array, in memory of its own, holding what the C++ function computes from the cells of the argument, whatever the layout of the argument in memory; every array that existed, its data and its attributes are as they were, also if the C++ function throws. Type, geotransform and projection are those of the input; the history gains one line. With in_place=True on a C-contiguous array nothing is returned, the array holds the same result, and no other memory and no other array object changes. Arguments that are not rdarrays, unknown topologies, unsupported types and arrays without two dimensions raise and change no data. With the C++ functions behind it: the array FillDepressions returns is at the drainage level of the input everywhere; every data cell of the array BreachDepressions returns runs off.", "quantifier": "every heap of arrays and views (any strides, offsets, sharing), every array, every C++ function behind the call", "why_tests_cant": "Aliasing between arbitrary views of shared memory, for every layout and every callee; tests use a few fresh contiguous arrays.", "anchors": ["wrappers/pyrichdem/richdem/__init__.py:FillDepressions,BreachDepressions,ResolveFlats,rdarray", "wrappers/pyrichdem/src/pywrapper.hpp:TemplatedArrayWrapper"]}
{"id": "C84", "title": "Python: FlowAccumulation, FlowProportions and TerrainAttribute return new arrays; what happens to weights", "statement": "Without weights, FlowAccumulation returns a new float64 array, TerrainAttribute a new float32 array and FlowProportions a new float32 array of nine values per cell, each holding what the C++ function computes, in memory of its own, with the attributes of the DEM; nothing that existed changes. With weights, for in_place=True and in_place=False alike, the result is a view of the weights and the weights are overwritten with the accumulation (the documented in_place=False is refuted); with in_place=True the result has lost geotransform and projection. Weights of another type raise and change nothing. With the C++ functions behind it, the accumulation returned balances at every data cell.", "quantifier": "every heap of arrays and views, every DEM, weights, method and C++ function", "why_tests_cant": "Aliasing for all layouts and all callees.", "anchors": ["wrappers/pyrichdem/richdem/__init__.py:FlowAccumulation,FlowProportions,TerrainAttribute,rdarray,rd3array", "include/richdem/methods/flow_accumulation.hpp"]}
{"id": "C85", "title": "Python: arrays that are not C-contiguous", "statement": "Row slices of an array are C-contiguous; column slices, transposes, flipped and strided views are not, except in trivial shapes. On an array that is not C-contiguous, the in_place=True functions, FlowAccumulation, TerrainAttribute and FlowProportions have undefined behaviour (they use memory of a freed temporary), and so has FlowAccumulation with weights that are not C-contiguous. The in_place=False functions are safe for every layout.", "quantifier": "every shape, all strides, every heap", "why_tests_cant": "All strides and shapes; undefined behaviour need not show in a test.", "anchors": ["wrappers/pyrichdem/src/pywrapper.hpp:TemplatedArrayWrapper", "wrappers/pyrichdem/src/pywrapper.cpp"]}
{"id": "C86", "title": "Python: which cells are NoData", "statement": "For integer arrays and no_data given as an int, a cell is NoData exactly if it equals the given value modulo the number of values of the type: the given value if the type has it, otherwise exactly one legitimate value (the default -9999 makes 241 NoData in uint8 arrays). Given as a float with an integer value, it works if the value is exactly a float32 and one of the type; if the nearest float32 is outside the type, behaviour is undefined (int32 with 2147483647.0). For float32 arrays the NoData cells are those holding the nearest float. For float64 arrays the value passes through a float32: cells holding the given value are NoData if and only if it is exactly a float32 (refuted for -9999.9 and for the smallest double). no_data=NaN recognises no cell. After an operation the no_data attribute is the value C++ used.", "quantifier": "every element type, every NoData value, every cell value", "why_tests_cant": "Every pair of a NoData value and a cell value, with IEEE rounding.", "anchors": ["wrappers/pyrichdem/src/pywrapper.hpp:setNoData", "wrappers/pyrichdem/richdem/__init__.py:rdarray.wrap,copyFromWrapped", "include/richdem/common/Array2D.hpp:isNoData"]}
{"id": "C87", "title": "Python: method names, geotransforms and the command line programs", "statement": "FlowAccumulation and FlowProportions raise for a method that is not one of the thirteen documented names, or that needs an exponent and has none, and TerrainAttribute raises for any other attribute name; no array that existed changes. The names FairfieldLeymarie and OCallaghan in the help text of the program are not methods (refuted). FlowProportions raises on every DEM whose geotransform is a numpy array, so on everything generate_perlin_terrain returns (refuted). rd_depression_filling saves the filled DEM; rd_flow_accumulation and rd_terrain_property save the computed array; rd_breach_depressions (Python) saves the DEM unbreached (refuted).", "quantifier": "every string, every exponent, every heap, every DEM, every C++ function behind the calls", "why_tests_cant": "All names and all callees; the command line programs have no tests.", "anchors": ["wrappers/pyrichdem/richdem/__init__.py:FlowAccumulation,FlowProportions,TerrainAttribute,generate_perlin_terrain", "wrappers/pyrichdem/richdem/cli.py"]}
{"id": "C88", "title": "Python: FillDepressions(epsilon=True) on integer arrays", "statement": "On an integer array of up to 32 bits without negative elevations and without NoData cells, FillDepressions(dem, epsilon=True) returns (the C++ overloads that throw are not the ones bound) and removes no depression: every cell keeps its drainage level, is raised at most to just below it, and stands at it afterwards if and only if it did before; a raised cell ends one below a neighbour, so the gradient points into the depression. So the expectation that it either raises or returns an array all of whose cells drain is false for every array with a depression.", "quantifier": "every raster size, every non-negative elevation, both topologies, every order of equal elements in the queue", "why_tests_cant": "All rasters; the tests use floating point arrays.", "anchors": ["include/richdem/depressions/Barnes2014.hpp:PriorityFloodEpsilon_Barnes2014", "wrappers/pyrichdem/src/pywrapper.hpp:rdPFepsilonD8", "wrappers/pyrichdem/richdem/__init__.py:FillDepressions"]}
{"id": "C89", "title": "Python: depression hierarchy and fill-spill-merge", "statement": "get_new_depression_hierarchy_labels returns a new uint32 array with OCEAN exactly on the edge of the raster and NO_DEP inside. get_depression_hierarchy on a C-contiguous float64 elevation model and uint32 labels writes the labels in place, returns the directions in a new array and changes nothing else; other element types raise with nothing changed; arrays that are not C-contiguous are undefined behaviour. With new labels the call succeeds exactly for models of at least 3 x 3 cells, the labels are the watersheds of the edge and of the pits, the directions lead there, and the hierarchy is well formed. fill_spill_merge then changes only the water table array, which holds the water at rest. The hierarchy the caller passed is not modified, contrary to the documentation.", "quantifier": "every raster of fewer than 2^31 cells, every heap of arrays and views, every rain >= 0 that spares cell (0,0), every schedule, sort and queue order", "why_tests_cant": "All heaps, rasters and schedules.", "anchors": ["wrappers/pyrichdem/richdem/__init__.py:get_depression_hierarchy", "wrappers/pyrichdem/richdem/__init__.py:get_new_depression_hierarchy_labels", "wrappers/pyrichdem/richdem/__init__.py:fill_spill_merge", "wrappers/pyrichdem/src/pywrapper.cpp:dephier_module"]}
{"id": "C90", "title": "Raster files read and written through GDAL", "statement": "A window that starts inside the raster gives the array of the part of the window inside the raster, with the NoData value, georeference and projection of the file; width and height 0 at offset 0 stand for the whole raster (not for \"the rest\" at any other offset: that throws, and offsets beyond both edges give an array of negative size without an exception). exact=true accepts a window exactly if it ends at the lower right corner. Opening without data and calling loadData later gives what loading at once would give. Saving an array and opening the file again gives the same type, size, cells, NoData value, projection and georeference and touches no other file. No metadata of a file are ever read, so the processing history of the input is lost, though repeated saves of one array accumulate a line each. Saving a window with its offsets keeps its cells in place exactly if the raster is not rotated. A NoData value that the element type cannot hold makes the opening of a file undefined. Padding on loading is a frame of zeros with the georeference of the unpadded raster; padding is not removed on saving.", "quantifier": "every file, window, element type, array with or without georeference and metadata, message, time and program name", "why_tests_cant": "All files, windows and types.", "anchors": ["include/richdem/common/Array2D.hpp:loadGDAL", "include/richdem/common/Array2D.hpp:loadData", "include/richdem/common/Array2D.hpp:saveGDAL", "include/richdem/common/Array2D.hpp:ProcessMetadata", "include/richdem/common/loaders.hpp:LoadGDAL", "include/richdem/common/loaders.hpp:SaveGDAL", "include/richdem/common/gdal.hpp:NativeTypeToGDAL"]}
{"id": "C91", "title": "Python: LoadGDAL and SaveGDAL", "statement": "LoadGDAL gives an array with the type, shape, cells, projection and georeference of the file, its NoData value (or the argument), and all metadata with one line of history added; it raises if there is neither a NoData value nor the argument, or the type is none of the seven. SaveGDAL returns normally exactly for an rdarray with georeference, NoData value and metadata, and changes no other file. Saving and loading gives float32 cells nearest to those saved - so the type is lost and an integer keeps its value for certain only up to 2^24 - with the same georeference, projection and metadata. An array made of a numpy array cannot be saved: the call raises after replacing the file by one of zeros. NoData cells of integer rasters stay NoData if the type can hold the NoData value; others become NoData exactly if they round to the same float32. Files pass between the C++ programs and Python.", "quantifier": "every file, array of any type, NoData value (int or float), metadata, names and times", "why_tests_cant": "All arrays, types, values and files.", "anchors": ["wrappers/pyrichdem/richdem/__init__.py:LoadGDAL", "wrappers/pyrichdem/richdem/__init__.py:SaveGDAL", "wrappers/pyrichdem/richdem/__init__.py:_AddAnalysis", "wrappers/pyrichdem/richdem/__init__.py:rdarray"]}
{"id": "C92", "title": "Perlin terrain generation", "statement": "generate_perlin_terrain on a square raster of fewer than 2^31/10 columns reads only inside its table whatever permutation the seed gives, writes every cell and no other, and what it writes does not depend on the previous contents; every height is a finite number between -9262 and 9262 in IEEE arithmetic, so no cell gets the NoData value -9999, and between -0.1174 and 1.1174 in exact arithmetic. Heights between 0 and 1 are not guaranteed. Refining the raster k times keeps the heights of the shared cells bit for bit. A raster that is not square is rejected before anything is written.", "quantifier": "every permutation table, raster size and previous contents", "why_tests_cant": "All permutations (256!) and sizes.", "anchors": ["src/terrain_generation/terrain_generation.cpp:generate_perlin_terrain", "src/terrain_generation/PerlinNoise.cpp:noise", "src/terrain_generation/PerlinNoise.cpp:PerlinNoise"]}
{"id": "C93", "title": "Largest full square of a layout (rd_layout_find_square.py)", "statement": "For a layout file with rows of equal length the script reports the size of the largest square block without null tiles among those whose upper left corner is not in the last row or column (-1 if there is none), which is the largest of the whole layout whenever some full 2 x 2 block exists; with a prefix it writes exactly the files <prefix>1.layout, ..., <prefix>N.layout, the k-th holding the k x k tiles at the place found, and the layout reader delivers all of them as tiles. For layouts whose tiles all lie in the last row or column (any layout of one row or one column) the answer is -1 and no file is written. Missing or empty files and rows of different lengths raise an exception.", "quantifier": "every layout text, prefix and size", "why_tests_cant": "All layouts of all sizes.", "anchors": ["apps/rd_layout_find_square.py:LargestSquareOfOnes", "apps/rd_layout_find_square.py", "include/richdem/common/Layoutfile.hpp:LayoutfileReader"]}
{"id": "C94", "title": "Layout checker (rd_layout_check.py)", "statement": "The report gives the number of rows, the width of the first row, exactly the rows of another width, the numbers of fields and of tiles, warns of duplicates exactly if some tile name occurs twice, and lists exactly the tiles whose file does not exist. A file without carriage returns for which no row width is reported is accepted by the layout reader. The files looked for are the ones the reader names, if tile names are relative. Absolute names are looked up differently from the reader; files with Windows line ends get the same report as without, but the reader delivers the last name of every row with a carriage return, also where there is no tile.", "quantifier": "every layout text, file system and path", "why_tests_cant": "All layouts and directory contents.", "anchors": ["apps/rd_layout_check.py", "include/richdem/common/Layoutfile.hpp:LayoutfileReader"]}
{"id": "C95", "title": "Command line programs for raster files (rd_no_data, rd_geotransform, rd_projection, rd_processing_history, rd_expand_dimensions, rd_compare, rd_hist)", "statement": "A program that changes a description writes a file with the type, size and cells of the input, in which only what it was asked to change differs: the NoData value becomes the integer at the start of the text given, georeference coefficients given as \"x\" are kept, the projection is the text after \":\" or that of another file. Expanding keeps the cells where they were and fills the rest with NoData; a smaller size is refused (with exit status 0). For two files of the same type and size rd_compare counts exactly the cells that differ; rd_hist lists each integer value once, with the number of its cells. No other file changes. A missing file is an error. False: that the NoData value is the one given (fractions and exponents are dropped, values outside the range of the type wrap around); that NoData value, georeference and history are shown (undefined if the NoData value is missing or outside -128..127; the value is shown as a character; the history is never shown); that rd_compare works for files of different sizes or types or with NaN.", "quantifier": "every raster file, argument and file system", "why_tests_cant": "All files, sizes, types and texts.", "anchors": ["apps/router.hpp", "apps/rd_no_data.cpp", "apps/rd_geotransform.cpp", "apps/rd_projection.cpp", "apps/rd_processing_history.cpp", "apps/rd_expand_dimensions.cpp", "apps/rd_compare.cpp", "apps/rd_hist.cpp"]}
{"id": "C96", "title": "Printing cells of a raster file (rd_raster_inspect, rd_raster_display)", "statement": "rd_raster_inspect with a centre and a radius shows exactly the cells of the raster at most that many columns and rows away, each with its value, in the orientation given by the georeference and --flipV; flags may stand anywhere; if there is no such cell, an error. With an explicit window inside the raster it shows exactly that window; a minimum above the maximum is refused, as are unknown flags, negative numbers and too few or too many of them. rd_raster_display shows every cell as an integer. False: that the values shown are those of the window if it reaches beyond the raster (cells of following rows are shown right of it; beyond the last cell memory outside the raster is read); that a raster can be flipped sideways (undefined for every raster, also without a flag if the georeference has a negative cell width).", "quantifier": "every raster file, command line and window", "why_tests_cant": "All files, windows and argument orders.", "anchors": ["apps/rd_raster_inspect.cpp", "apps/rd_raster_display.cpp", "include/richdem/common/Array2D.hpp:flipVert", "include/richdem/common/Array2D.hpp:flipHorz"]}
{"id": "C97", "title": "Depression programs on raster files (rd_depressions_flood, rd_depressions_has, rd_depressions_mask)", "statement": "For a raster file of any supported type, rd_depressions_flood with limit 0 writes a raster that differs only in its cells, each of which is at its drainage level - exactly, also for floating point numbers, every number written being one of the input; with a limit, exactly the depressions (those that share a spill cell counted together) of at most so many cells are filled and the others untouched; a limit of at least the number of cells is no limit. rd_depressions_has says whether a cell lies below its drainage level; rd_depressions_mask writes 3 for NoData cells, 1 for the others below their level, 0 for the rest. After flooding the second finds nothing, the third marks nothing and flooding again changes nothing. False: that the limit used is the number given (it is taken modulo 2^32; fractions and exponents are dropped; negative numbers are accepted).", "quantifier": "every raster file of numbers (integers or floats, infinities included; no NaN and no negative zero among the cells), every limit text", "why_tests_cant": "All rasters, types and limits.", "anchors": ["apps/rd_depressions_flood.cpp", "apps/rd_depressions_has.cpp", "apps/rd_depressions_mask.cpp", "include/richdem/depressions/Barnes2014.hpp:pit_mask", "include/richdem/depressions/Zhou2016.hpp"]}
{"id": "C98", "title": "Flow accumulation on raster files (rd_flow_accumulation)", "statement": "For a raster file of any supported type, rd_flow_accumulation with algorithm 1 (D8) writes a raster of 64 bit floats of the same size, projection and georeference with NoData value -1. Every cell with data holds the number of cells whose water comes to it, itself included, times the area of a cell: exactly, as long as the sides of a cell are integers and the product is at most 2^53. Water goes from a cell that is not on the edge to its lowest neighbour with data if that is lower, of equally low ones to the first, clockwise from the west. The cells without data hold -1. All this whatever the order in which threads work. Algorithms 4, 5, 7, 8 and 9 without their parameter, and unknown file types, write nothing. False: that unknown or disabled algorithms are refused (a raster that holds the area of one cell everywhere, also where there is no data, is written and the exit status is 0).", "quantifier": "every raster file of numbers (integers or floats; no NaN, negative zero or plus infinity among the cells) of fewer than 2^31 cells, every command line, every order of threads", "why_tests_cant": "All rasters, types and schedules.", "anchors": ["apps/rd_flow_accumulation.cpp", "include/richdem/methods/flow_accumulation.hpp:FA_D8", "include/richdem/flowmet/OCallaghan1984.hpp", "include/richdem/methods/flow_accumulation_generic.hpp:FlowAccumulation", "include/richdem/common/Array2D.hpp:scale,getCellArea"]}
{"id": "C99", "title": "Breaching depressions of raster files (rd_depressions_breach)", "statement": "For a raster file of any supported type, rd_depressions_breach with COMPLETE and NOEPS writes a raster that differs only in its cells: cells without data are unchanged, from every cell with data water runs off, never uphill, to the edge or to a cell without data; single-cell pits are raised to their lowest neighbour, and cells are lowered to the level of a cell without lower neighbour on the least-cost way from it; no cell stands above its filling level; every number written is one of the input. FILL or NOFILL and the two limits do not matter for it. If every cell has data, rd_depressions_has finds nothing afterwards. With SELECTIVE and NOEPS on unsigned integers, cells without data are unchanged; with FILL water runs off from every inner cell that had no lower neighbour; with NOFILL only pits are raised and cells lowered as above. Words other than those documented are refused before the file is opened. False: that the depth limit may be any number from 0 to infinity (for integer rasters one that the type cannot hold is undefined behaviour, also in the mode that does not use it).", "quantifier": "every raster file of numbers (integers or floats; no NaN, negative zero or plus infinity among the cells) of fewer than 2^31 cells, every command line, every tie order of the queue", "why_tests_cant": "All rasters, types and command lines.", "anchors": ["apps/rd_depressions_breach.cpp", "include/richdem/depressions/Lindsay2016.hpp:Lindsay2016"]}

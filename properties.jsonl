{"id": "C01", "title": "Layer registry stays consistent", "statement": "Starting from a map built with pairwise distinct layer names, after any sequence of public operations, including ones that throw, getLayers() lists every layer for which exists() is true exactly once and nothing else, and every layer's matrix has exactly getSize() rows and columns.", "quantifier": "every constructor argument with distinct names and every finite history of add/erase/clear*/setGeometry/at-writes/setBasicLayers/move/addDataFrom/set* calls", "why_tests_cant": "a unit test checks one history; the invariant has to survive all of them", "anchors": ["cost_map_core/src/lib/cost_map.cpp:CostMap", "cost_map_core/src/lib/cost_map.cpp:add", "cost_map_core/src/lib/cost_map.cpp:erase", "cost_map_core/src/lib/cost_map.cpp:resize", "cost_map_core/src/lib/cost_map.cpp:move", "cost_map_core/src/lib/cost_map.cpp:addDataFrom"]}
{"id": "C02", "title": "add/get law", "statement": "After add(layer, data) with data of the map's size, get(layer) returns exactly data, every other layer and all metadata are unchanged, and the layer is appended to getLayers() exactly when it did not exist before. add(layer, value) is the same with a constant matrix (default NO_INFORMATION).", "quantifier": "every map state, layer name, matrix, value", "why_tests_cant": "names, contents and prior states are unbounded", "anchors": ["cost_map_core/src/lib/cost_map.cpp:add", "cost_map_core/src/lib/cost_map.cpp:get", "cost_map_core/src/lib/cost_map.cpp:exists"]}
{"id": "C03", "title": "erase law", "statement": "erase(layer) returns true exactly when the layer existed; afterwards the layer neither exists nor is listed as a layer, nor as a basic layer if it was listed there once, and every other layer, its data, its relative order and all metadata are unchanged; when it returns false the map is unchanged. A name given twice to setBasicLayers stays basic once after erase, and clearBasic then throws.", "quantifier": "every registry-consistent map and layer name; existence witness for the repeated name", "why_tests_cant": "needs all histories and names", "anchors": ["cost_map_core/src/lib/cost_map.cpp:erase"]}
{"id": "C04", "title": "Cell write/read law", "statement": "Writing v through at(layer,index) makes a later at(layer,index) return v and leaves every other cell of every layer and all metadata unchanged.", "quantifier": "every map, layer, in-range index, cost value", "why_tests_cant": "cells x layers x states is unbounded", "anchors": ["cost_map_core/src/lib/cost_map.cpp:at"]}
{"id": "C05", "title": "Missing layers are reported, never invented", "statement": "get, at, atPosition (inside the map), clear, Inflate and Deflate on a layer that does not exist throw out_of_range, and erase returns false; the map is left unchanged.", "quantifier": "every map and every absent layer name", "why_tests_cant": "absent names are infinitely many", "anchors": ["cost_map_core/src/lib/cost_map.cpp:get", "cost_map_core/src/lib/cost_map.cpp:at", "cost_map_core/src/lib/cost_map.cpp:atPosition", "cost_map_core/src/lib/cost_map.cpp:clear", "cost_map_core/src/lib/operators/inflation.cpp:Inflate::operator()", "cost_map_core/src/lib/operators/inflation.cpp:Deflate::operator()"]}
{"id": "C06", "title": "clear, clearBasic and clearAll set exactly the intended cells to NO_INFORMATION", "statement": "clear(l) sets every cell of l, clearAll every cell of every layer, clearBasic every cell of every basic layer to NO_INFORMATION; no other cell, and no metadata, changes; clearBasic throws out_of_range at the first basic layer that does not exist, having cleared exactly the basic layers listed before it.", "quantifier": "every map and layer selection", "why_tests_cant": "whole-map frame condition", "anchors": ["cost_map_core/src/lib/cost_map.cpp:clear", "cost_map_core/src/lib/cost_map.cpp:clearBasic", "cost_map_core/src/lib/cost_map.cpp:clearAll"]}
{"id": "C07", "title": "Meaning of validity", "statement": "isValid(index, layer) is true iff the cell differs from NO_INFORMATION; isValid(index, layers) is true iff the list is non-empty and every listed layer is valid there, it throws out_of_range when a missing layer is listed and all layers before it are valid, and is false without looking further at the first layer that is NO_INFORMATION there; isValid(index) is that for the basic layers, hence false when no basic layers are set.", "quantifier": "every map, index in range, layer list", "why_tests_cant": "all costs, all lists", "anchors": ["cost_map_core/src/lib/cost_map.cpp:isValid"]}
{"id": "C08", "title": "hasSameLayers is layer inclusion", "statement": "m.hasSameLayers(o) is true iff every layer of m exists in o.", "quantifier": "every pair of maps", "why_tests_cant": "unbounded layer sets", "anchors": ["cost_map_core/src/lib/cost_map.cpp:hasSameLayers"]}
{"id": "C09", "title": "Duplicate constructor names break the registry", "statement": "Constructing a map with a repeated layer name and erasing that name leaves getLayers() listing a layer that does not exist, so that a later move() throws; distinctness of constructor names is therefore a real precondition of C01.", "quantifier": "existence of a short public history", "why_tests_cant": "the existing tests never pass duplicates; the claim delimits C01", "anchors": ["cost_map_core/src/lib/cost_map.cpp:CostMap", "cost_map_core/src/lib/cost_map.cpp:erase", "cost_map_core/src/lib/cost_map.cpp:clearRows"]}
{"id": "C10", "title": "setGeometry establishes a consistent geometry", "statement": "For positive length and resolution, setGeometry makes getSize() the rounded quotient length/resolution per axis, getLength() = size*resolution (within half a cell of the request), stores position and resolution, resets the start index to (0,0), keeps the set of layers and sets every cell of every layer to NO_INFORMATION; for non-positive length or resolution the assertion fires.", "quantifier": "every map, length, resolution, position", "why_tests_cant": "continuum of geometries", "anchors": ["cost_map_core/src/lib/cost_map.cpp:setGeometry", "cost_map_core/src/lib/cost_map.cpp:resize", "cost_map_core/src/lib/cost_map.cpp:clearAll"]}
{"id": "C11", "title": "Index to position to index round trip", "statement": "For every in-range index of every map, whatever its circular-buffer start index, getPosition succeeds and getIndex of the returned position succeeds and returns the same index.", "quantifier": "every geometry, start index, index", "why_tests_cant": "all sizes, start indices and real geometries", "anchors": ["cost_map_core/src/lib/cost_map.cpp:getIndex", "cost_map_core/src/lib/cost_map.cpp:getPosition"]}
{"id": "C12", "title": "Position to index", "statement": "isInside(p) is true iff p lies in (centre-length/2, centre+length/2] on both axes; getIndex(p) succeeds iff isInside(p); on success the index is in range and the returned cell's centre is within half a resolution of p on each axis; atPosition reads/writes that cell, and throws out_of_range outside.", "quantifier": "every geometry, start index, position", "why_tests_cant": "continuum of positions incl. boundaries", "anchors": ["cost_map_core/src/lib/cost_map.cpp:getIndex", "cost_map_core/src/lib/cost_map.cpp:isInside", "cost_map_core/src/lib/cost_map.cpp:atPosition"]}
{"id": "C13", "title": "Cell centres form a regular grid", "statement": "Distinct in-range indices have distinct positions; the cell at unwrapped index (i,j) is centred at the map's +x/+y corner minus ((i+1/2),(j+1/2)) resolutions, all centres lie inside the map.", "quantifier": "every geometry, start index, pair of indices", "why_tests_cant": "all sizes", "anchors": ["cost_map_core/src/lib/cost_map.cpp:getPosition"]}
{"id": "C14", "title": "move keeps data stationary in the world", "statement": "When move runs with wrapping index bounding, after move(p) every position covered by both the old and the new map extent carries the same value in every layer, and every newly covered cell of a cleared layer is NO_INFORMATION, for every history of moves.", "quantifier": "every map, start index, target position, and any sequence of moves; targets are taken to be fewer than 2^29 cells away, beyond that see C80", "why_tests_cant": "needs all buffer offsets and shift sizes, and histories", "anchors": ["cost_map_core/src/lib/cost_map.cpp:move", "cost_map_core/src/lib/cost_map.cpp:clearRows", "cost_map_core/src/lib/cost_map.cpp:clearCols"]}
{"id": "C15", "title": "move aligns to the grid and reports truthfully", "statement": "move(p) changes the centre by a whole number of cells per axis and to within half a cell of p, keeps size, resolution, length and layers, keeps the start index in range, and returns true iff the centre changed. Every buffer cell keeps its value or becomes NO_INFORMATION. All of this holds whether or not boundIndexToRange wraps.", "quantifier": "every map and target; targets are taken to be fewer than 2^29 cells away, beyond that see C80", "why_tests_cant": "continuum of targets", "anchors": ["cost_map_core/src/lib/cost_map.cpp:move"]}
{"id": "C16", "title": "move reports the newly covered regions", "statement": "With wrapping index bounding, the regions move appends to newRegions cover exactly the buffer cells whose world position was not covered before the move.", "quantifier": "every map and target; targets are taken to be fewer than 2^29 cells away, beyond that see C80", "why_tests_cant": "all offsets and shifts", "anchors": ["cost_map_core/src/lib/cost_map.cpp:move"]}
{"id": "C17", "title": "move with the clamping boundIndexToRange of grid_map 1.6", "statement": "As written the code calls boundIndexToRange, which in grid_map >= 1.6 clamps instead of wrapping: there is a reachable map and a target for which a cell covered before and after the move changes value; the move is still correct whenever no bounded index leaves the buffer.", "quantifier": "existence witness; and all non-wrapping moves; targets are taken to be fewer than 2^29 cells away, beyond that see C80", "why_tests_cant": "the shipped test only moves once from start index 0 in the harmless direction", "anchors": ["cost_map_core/src/lib/cost_map.cpp:move"]}
{"id": "C18", "title": "getSubmap returns the parent's data at the same positions", "statement": "When getSubmap succeeds, the submap has the parent's resolution, layers, frame, stamp and basic layers, start index 0, its cells coincide with parent cells, and every cell of every layer equals the parent's value at the same position, for any parent start index.", "quantifier": "every map, start index, requested position and length", "why_tests_cant": "four wrap cases x all sizes", "anchors": ["cost_map_core/src/lib/cost_map.cpp:getSubmap", "cost_map_core/src/lib/submap_geometry.cpp:SubmapGeometry"]}
{"id": "C19", "title": "getSubmap covers the request and reports failure", "statement": "getSubmap never throws: it either succeeds, and then the requested position is inside the map and the submap, or returns false and an empty map with the parent's layer names. It succeeds whenever the requested position is inside the map, the lengths are not negative and the resolution exceeds the border epsilon at the requested corners; the submap then covers the requested rectangle intersected with the map and no whole row or column more. Far from the origin (2^50 m, resolution 1) the epsilon exceeds a cell and a request at the map centre fails.", "quantifier": "every map, request", "why_tests_cant": "continuum of requests", "anchors": ["cost_map_core/src/lib/cost_map.cpp:getSubmap"]}
{"id": "C20", "title": "addDataFrom merges cell by cell", "statement": "If the selected layers exist in other and the basic layers exist or are selected, then without extension, after addDataFrom every selected layer exists, and a cell of a selected layer changes exactly when (overwriteData or the cell is invalid in the basic layers) and its centre lies inside other and other's cell there is not NO_INFORMATION; it then holds other's value; nothing else changes. If a selected layer is missing in other, the selected layers are still added; the call then throws out_of_range at the first cell (in iterator order) that may be written and lies inside other, having merged only that cell and only the layers listed before the missing one; without such a cell it returns true and nothing else changes.", "quantifier": "every pair of maps, flags, layer list, with and without extension; also in double arithmetic when no cell centre lies within the rounding error of other's border; existence witness at that border", "why_tests_cant": "all geometries and contents", "anchors": ["cost_map_core/src/lib/cost_map.cpp:addDataFrom"]}
{"id": "C21", "title": "overwriteData=false protects only maps with basic layers", "statement": "If the basic layers are non-empty and all valid at a cell, addDataFrom(..., overwriteData=false, ...) leaves that cell alone; with no basic layers (the default) every valid cell is overwritten regardless of the flag.", "quantifier": "every map pair, in exact arithmetic and (away from the rounding error of other's border) in double arithmetic; existence witness", "why_tests_cant": "documented contract vs default state", "anchors": ["cost_map_core/src/lib/cost_map.cpp:addDataFrom", "cost_map_core/src/lib/cost_map.cpp:isValid"]}
{"id": "C22", "title": "extendToInclude keeps the grid aligned", "statement": "extendToInclude does nothing when other is already contained; otherwise the new grid is aligned with the old one (centres differ by whole cells), resolution and layers are kept, every old cell still covered keeps its value in every layer while all other cells are NO_INFORMATION, and each corner is within three cells of that of the smallest rectangle around both maps. With doubles the same holds, the grids being aligned up to the rounding error, and containment meaning by a margin of that error.", "quantifier": "every pair of maps; the bound on the corners and double arithmetic for maps up to 2^41 cells from the origin", "why_tests_cant": "continuum of offsets, both parities", "anchors": ["cost_map_core/src/lib/cost_map.cpp:extendToInclude"]}
{"id": "C23", "title": "extendToInclude need not include the other map, and can lose data", "statement": "Although documented to make the other map fit within, there are maps for which the extended map does not contain the other map and old cells are dropped: on a common grid and in exact arithmetic exactly the extensions that grow the lower end by an odd number of cells more than the upper end. With doubles and a resolution of 0.1 it also happens for an extension by one cell at the upper end and for one by two cells at the lower end, and addDataFrom then drops data of the other map.", "quantifier": "existence witnesses (exact and double arithmetic); every pair of maps on a common grid (exact arithmetic)", "why_tests_cant": "the tests extend only to the positive side", "anchors": ["cost_map_core/src/lib/cost_map.cpp:extendToInclude"]}
{"id": "C24", "title": "Linear interpolation", "statement": "On an unmoved map, atPosition(..., INTER_LINEAR) returns the bilinear interpolation of the four surrounding cells when they exist, rounded down, up to the error of solving the four equations and of the conversion to float: with a solution good to 2^-26 it is between their minimum and maximum and equals the cell's value at the cell's centre (also with every coordinate rounded to double). Otherwise it falls back to the nearest cell. Outside the map it throws out_of_range within one cell of the upper sides and reads an uninitialised position elsewhere.", "quantifier": "every map, position, solver error up to 1/4", "why_tests_cant": "continuum of positions", "anchors": ["cost_map_core/src/lib/cost_map.cpp:atPosition", "cost_map_core/src/lib/cost_map.cpp:atPositionLinearInterpolated"]}
{"id": "C25", "title": "CostMapIterator visits every cell exactly once", "statement": "On a map with at least one cell, iterating from construction until isPastEnd visits every in-range index exactly once, in row-major order of the unwrapped index, whatever the start index; getUnwrappedIndex is the world-ordered index.", "quantifier": "every size and start index", "why_tests_cant": "all sizes and offsets", "anchors": ["cost_map_core/src/lib/iterators/cost_map_iterator.cpp:CostMapIterator", "cost_map_core/src/lib/iterators/cost_map_iterator.cpp:operator ++"]}
{"id": "C26", "title": "Iterating an empty map is not safe", "statement": "A CostMapIterator over a map without cells is not past the end at construction, so addDataFrom into, and toOccupancyGrid of, a map whose geometry has no cells access a cell that does not exist.", "quantifier": "existence and all zero-sized maps", "why_tests_cant": "no test uses an empty map", "anchors": ["cost_map_core/src/lib/iterators/cost_map_iterator.cpp:CostMapIterator", "cost_map_core/src/lib/cost_map.cpp:addDataFrom", "cost_map_ros/src/lib/converter.cpp:toOccupancyGrid"]}
{"id": "C27", "title": "SubmapIterator visits exactly the submap", "statement": "For a submap window that fits in the map, the iterator visits every buffer index of the window exactly once, row-major, with getSubmapIndex counting from (0,0), whatever the start index.", "quantifier": "every size, start index, window", "why_tests_cant": "all offsets and windows", "anchors": ["cost_map_core/src/lib/iterators/submap_iterator.cpp:SubmapIterator"]}
{"id": "C28", "title": "CircleIterator visits exactly the circle's cells", "statement": "On a map with start index (0,0), the circle iterator visits exactly the indices whose cell centre is within the radius of the centre, each exactly once, provided the radius is not negative and the resolution exceeds the border epsilon.", "quantifier": "every map, centre, radius", "why_tests_cant": "continuum of circles", "anchors": ["cost_map_core/src/lib/iterators/circle_iterator.cpp:CircleIterator"]}
{"id": "C29", "title": "Circle and ellipse iteration break on moved maps", "statement": "On a map whose start index is not (0,0) the circle (ellipse) iterator can omit cells lying inside the circle (ellipse), because the window size is computed from wrapped indices. Exactly: let s and e be the cells of the upper and lower corner of the box around the shape, bounded to the map. If the buffer index of s is not greater than that of e in either coordinate (the box does not reach over the seam of the buffer), the iterator visits exactly the cells of the shape, each once, on a moved map too; otherwise it visits s, if s is in the shape, and nothing else.", "quantifier": "every map, moved or not, every circle and ellipse; existence witnesses for the omission", "why_tests_cant": "no test iterates a circle on a moved map", "anchors": ["cost_map_core/src/lib/iterators/circle_iterator.cpp:findSubmapParameters", "cost_map_core/src/lib/iterators/ellipse_iterator.cpp:findSubmapParameters"]}
{"id": "C30", "title": "EllipseIterator visits exactly the ellipse's cells", "statement": "On a map with start index (0,0), the ellipse iterator visits exactly the indices whose centre satisfies the rotated ellipse inequality, each exactly once.", "quantifier": "every map, centre, axes, rotation", "why_tests_cant": "continuum", "anchors": ["cost_map_core/src/lib/iterators/ellipse_iterator.cpp:EllipseIterator"]}
{"id": "C31", "title": "PolygonIterator visits exactly the polygon's cells", "statement": "For every non-empty vertex list and every start index, provided the resolution exceeds the border epsilon at the vertices, the polygon iterator visits exactly the indices whose centre is inside the polygon (even-odd rule), each exactly once.", "quantifier": "every map, start index, polygon", "why_tests_cant": "all polygons and offsets", "anchors": ["cost_map_core/src/lib/iterators/polygon_iterator.cpp:PolygonIterator"]}
{"id": "C32", "title": "LineIterator draws a connected line", "statement": "Between two indices the iterator visits max(|dx|,|dy|)+1 cells, first the start, last the end, each step moves to an 8-neighbour, all inside the bounding box of the endpoints, and every cell is within half a cell of the ideal segment; the number of steps is as reported by isPastEnd.", "quantifier": "every pair of indices", "why_tests_cant": "unbounded lengths and all octants", "anchors": ["cost_map_core/src/lib/iterators/line_iterator.cpp:initializeIterationParameters", "cost_map_core/src/lib/iterators/line_iterator.cpp:operator ++"]}
{"id": "C33", "title": "LineIterator between positions", "statement": "When both ends are inside the map the position constructor draws the line between the two containing cells; an end outside the map is advanced along the segment in resolution steps to the first sample inside; when no sample hits the map the iterator is left uninitialised and reading isPastEnd is undefined. For distinct ends much closer than a cell, one of them outside, the search can miss the map or never end. In doubles the same holds, with samples off by up to 128 W^2 roundings of a cell when all points lie within W <= 2^20 cells of the origin, except for samples at the lower border of the map, of which a cell at the opposite end can be taken.", "quantifier": "every map and pair of positions that coincide or are at least about a seventh of a cell (in doubles a fifth) apart; existence witnesses for the rest", "why_tests_cant": "continuum; uninitialised reads are invisible to a passing test", "anchors": ["cost_map_core/src/lib/iterators/line_iterator.cpp:LineIterator", "cost_map_core/src/lib/iterators/line_iterator.cpp:getIndexLimitedToMapRange"]}
{"id": "C34", "title": "Spiral rings are complete", "statement": "For every distance d >= 1 the ring walk of the spiral iterator terminates and visits every offset whose Euclidean norm has integer part d exactly once and no other offset.", "quantifier": "every ring distance", "why_tests_cant": "infinitely many rings", "anchors": ["cost_map_core/src/lib/iterators/spiral_iterator.cpp:generateRing"]}
{"id": "C35", "title": "Spiral iteration covers the disc", "statement": "On an unmoved map with the centre inside, spiral iteration visits every cell whose centre is within the radius, each once, ordered by ring, and no cell further than the radius plus three quarters of a cell, provided every ring up to the last has a cell to visit; if one has none, it dereferences an empty list. On any map, moved or not, it visits the centre cell and the cells of the rings around it in the buffer, each once, those of the two outermost rings only if the place they would have in the map before any move is within the radius; so on a moved map it can leave out cells within the radius. With positions, distances and the quotient giving the number of rings rounded to doubles, the claim for unmoved maps holds with the radius taken up to twice the rounding error of a position, and four fifths of a cell. It can visit cells outside the radius, and its operator!= is constantly false.", "quantifier": "every map, centre, radius; existence witnesses", "why_tests_cant": "continuum; undefined behaviour", "anchors": ["cost_map_core/src/lib/iterators/spiral_iterator.cpp:SpiralIterator", "cost_map_core/src/lib/iterators/spiral_iterator.cpp:operator ++", "cost_map_core/src/lib/iterators/spiral_iterator.cpp:operator !=", "cost_map_core/src/lib/iterators/spiral_iterator.cpp:isInside"]}
{"id": "C36", "title": "Inflation is sound", "statement": "For every cell the inflated value is the source value, or the source value combined with the cost of the distance to some lethal cell within the radius; known costs are never lowered and an unknown cell stays unknown unless the cost is at least INSCRIBED.", "quantifier": "every layer content, radius, cost function, tie-breaking of the priority queue", "why_tests_cant": "all maps and all queue orders", "anchors": ["cost_map_core/src/lib/operators/inflation.cpp:Inflate::operator()", "cost_map_core/src/lib/operators/inflation.cpp:enqueue"]}
{"id": "C37", "title": "Inflation stays within the radius and leaves everything else alone", "statement": "Cells farther than the radius from every lethal cell keep their source value; all other layers and the metadata are unchanged; a layer without lethal cells is copied verbatim.", "quantifier": "every map, radius, tie-breaking", "why_tests_cant": "all maps", "anchors": ["cost_map_core/src/lib/operators/inflation.cpp:Inflate::operator()", "cost_map_core/src/lib/operators/inflation.cpp:enqueue"]}
{"id": "C38", "title": "Inflation reaches every cell within Manhattan distance of the radius", "statement": "Every cell whose Manhattan distance k to a lethal cell is at most the cell radius is inflated, from a lethal cell at Euclidean distance at most k, for every tie-breaking of the priority queue.", "quantifier": "every map, radius, queue order", "why_tests_cant": "brushfire order is schedule dependent", "anchors": ["cost_map_core/src/lib/operators/inflation.cpp:Inflate::operator()", "cost_map_core/src/lib/operators/inflation.cpp:enqueue"]}
{"id": "C39", "title": "Inflation can miss cells within the Euclidean radius", "statement": "There is a layer, a radius and a legal queue order for which a cell strictly within the inflation radius of a lethal cell is not inflated.", "quantifier": "existence witness", "why_tests_cant": "needs adversarial multi-obstacle layouts", "anchors": ["cost_map_core/src/lib/operators/inflation.cpp:enqueue"]}
{"id": "C40", "title": "Inflation of a single obstacle is exact", "statement": "If exactly one cell is lethal, every cell within the radius gets exactly the combination of its source value with the cost of its distance to that cell, and every other cell is unchanged.", "quantifier": "every map size, obstacle cell, radius, cost function, queue order", "why_tests_cant": "all sizes", "anchors": ["cost_map_core/src/lib/operators/inflation.cpp:Inflate::operator()"]}
{"id": "C41", "title": "Inflation terminates and stays in bounds", "statement": "Inflation terminates after at most one queue pop per cell and never indexes the matrices, the seen table or the cached tables out of range.", "quantifier": "every map, radius, queue order", "why_tests_cant": "termination and memory safety", "anchors": ["cost_map_core/src/lib/operators/inflation.cpp:Inflate::operator()", "cost_map_core/src/lib/operators/inflation.cpp:distanceLookup", "cost_map_core/src/lib/operators/inflation.cpp:costLookup"]}
{"id": "C42", "title": "Inflate caches by cell radius only", "statement": "Calling the same Inflate object again with the same cell radius but another inflation computer (or resolution) yields the costs of the first computer; a fresh object, or a changed cell radius, gives the costs of the arguments.", "quantifier": "every call history", "why_tests_cant": "history dependence", "anchors": ["cost_map_core/src/lib/operators/inflation.cpp:Inflate::operator()", "cost_map_core/src/lib/operators/inflation.cpp:computeCaches"]}
{"id": "C43", "title": "In-place inflation equals out-of-place inflation", "statement": "Inflating a layer onto itself produces the same layer as inflating it into a new layer.", "quantifier": "every layer, radius, queue order", "why_tests_cant": "aliasing over all contents", "anchors": ["cost_map_core/src/lib/operators/inflation.cpp:Inflate::operator()"]}
{"id": "C44", "title": "ROS inflation cost curve", "statement": "For non-negative weight the ROS cost is 254 at distance 0, 253 up to the inscribed radius, at most 252 beyond it, never increases with distance, and is always a valid cost, for every rounding that is monotone and exact on small integers and every non-negative monotone exponential; rounding the real exponential gives such a function. With an exponential accurate to 2^-20 and real, double and float rounding as in the code, the cost beyond the radius is 252 e^(-weight (distance - radius)), truncated, up to an error of 0.001 before the truncation.", "quantifier": "every distance, radius, weight (exact real exponential)", "why_tests_cant": "continuum", "anchors": ["cost_map_core/src/lib/operators/inflation.cpp:ROSInflationComputer::operator()"]}
{"id": "C45", "title": "Deflate", "statement": "After Deflate every cell of the destination equals the source cell if it is at least the threshold (LETHAL, or INSCRIBED when keeping the inscribed region) and FREE_SPACE otherwise; the source (if distinct) and all other layers are unchanged; in place it works too.", "quantifier": "every map, layers, flag", "why_tests_cant": "all contents", "anchors": ["cost_map_core/src/lib/operators/inflation.cpp:Deflate::operator()"]}
{"id": "C46", "title": "Deflate undoes Inflate only without unknown cells", "statement": "If the source holds only FREE and LETHAL cells and the computer returns at most LETHAL at distance 0 and less than LETHAL (less than INSCRIBED when the inscribed region is kept) beyond it, Deflate after Inflate restores the source exactly; with unknown cells it can turn NO_INFORMATION into FREE_SPACE.", "quantifier": "every such map; existence witness", "why_tests_cant": "all contents and queue orders", "anchors": ["cost_map_core/src/lib/operators/inflation.cpp:Inflate::operator()", "cost_map_core/src/lib/operators/inflation.cpp:Deflate::operator()"]}
{"id": "C47", "title": "Message round trip", "statement": "fromMessage(toMessage(m)) into a fresh map succeeds and reproduces layers in order, data, basic layers, frame, stamp, geometry and start index, provided the start index fits 16 bits and the stamp 32-bit seconds, in exact arithmetic and in binary64.", "quantifier": "every map with a set geometry", "why_tests_cant": "all maps", "anchors": ["cost_map_ros/src/lib/converter.cpp:toMessage", "cost_map_ros/src/lib/converter.cpp:fromMessage"]}
{"id": "C48", "title": "fromMessage failure and leftovers", "statement": "fromMessage returns false exactly when the numbers of layer names and arrays differ, after having already replaced the geometry and cleared all data; layers of the target absent from the message survive as NO_INFORMATION layers.", "quantifier": "every message and target map; also in double arithmetic, for lengths within 0.49 cells of a whole number of cells below 2^22", "why_tests_cant": "all pairs", "anchors": ["cost_map_ros/src/lib/converter.cpp:fromMessage"]}
{"id": "C49", "title": "Start index is truncated to 16 bits in messages", "statement": "A map whose start index exceeds 65535 comes back from the message round trip with a different start index, so its data is relocated.", "quantifier": "existence and characterisation modulo 65536, in exact and double arithmetic", "why_tests_cant": "needs huge maps", "anchors": ["cost_map_ros/src/lib/converter.cpp:toMessage", "cost_map_msgs/msg/CostMap.msg:outer_start_index"]}
{"id": "C50", "title": "toGridMap", "statement": "toGridMap copies every layer cell to 100*cost/255 (0 to 0, 255 to 100, strictly increasing) at the same index with the same geometry, frame and stamp; but it drops the start index, so on a moved map values appear at other positions.", "quantifier": "every map, in exact and double arithmetic; existence witness", "why_tests_cant": "all contents and offsets", "anchors": ["cost_map_ros/src/lib/converter.cpp:toGridMap"]}
{"id": "C51", "title": "Occupancy value mapping", "statement": "toOccupancyGrid maps 255 to -1, 254 to 100, 253 to 99 and 0..252 monotonically into 0..98 with 0 to 0 and 252 to 98, in binary32 arithmetic.", "quantifier": "all 256 costs", "why_tests_cant": "the claim is about float rounding of every cost", "anchors": ["cost_map_ros/src/lib/converter.cpp:toOccupancyGrid"]}
{"id": "C52", "title": "Occupancy grid placement", "statement": "On an unmoved map with at least one cell, every occupancy cell is written and the occupancy cell covering a cell's centre holds that cell's mapped value; origin is the lower corner, width and height are the cell counts in x and y; on a moved map placement is wrong.", "quantifier": "every size, content; in double arithmetic up to 16 units in the last place of the farthest coordinate; existence witness", "why_tests_cant": "all sizes and offsets", "anchors": ["cost_map_ros/src/lib/converter.cpp:toOccupancyGrid"]}
{"id": "C53", "title": "Loading images", "statement": "addLayerFromROSImage rejects unsupported encodings and images cv_bridge refuses without touching the map, and otherwise (matching size) sets each cell from the pixel at the same buffer index to floor(254*(d-gray)/d), d being 256 or 65536, unless the pixel's alpha is below half of d, in which case it is NO_INFORMATION; other layers are unchanged; a size mismatch returns false but leaves the layer wiped.", "quantifier": "every image and map", "why_tests_cant": "all images", "anchors": ["cost_map_ros/src/lib/converter.cpp:addLayerFromROSImage"]}
{"id": "C54", "title": "16-bit images are read byte-swapped", "statement": "On a little-endian host 16-bit gray values are assembled high byte first from host-order bytes, so brightness order is not preserved; on a big-endian host it is.", "quantifier": "all 65536 gray values", "why_tests_cant": "host dependence", "anchors": ["cost_map_ros/src/lib/converter.cpp:addLayerFromROSImage"]}
{"id": "C55", "title": "Costs through an image bundle", "statement": "Saving a layer to an image bundle and loading it maps NO_INFORMATION to NO_INFORMATION and every other cost c to c for c<=127 and c-1 for c>=128 in exact arithmetic. In binary64 fifty listed costs come back one higher than that, so LETHAL (254) stays LETHAL and 43 and 44 both become 44; every cost comes back within one of what it was, and order is preserved, though not strictly.", "quantifier": "every map with up to 2^22 cells per side and every cost, in exact and in binary64 arithmetic", "why_tests_cant": "the existing tests never load a saved bundle", "anchors": ["cost_map_ros/src/lib/image_bundles.cpp:toImageBundle", "cost_map_ros/src/lib/image_bundles.cpp:fromImageBundle", "cost_map_ros/src/lib/converter.cpp:addLayerFromROSImage"]}
{"id": "C56", "title": "Metadata through an image bundle", "statement": "Through save and load, frame, cell counts and the set of layer names survive, the resolution is rounded to float, but the y coordinate of the centre is replaced by x, the start index and stamp become 0, basic layers are those of the target, layers come back sorted by name after the target's own, and the target's other layers become unknown; so cells of a map with a centre off the diagonal appear elsewhere.", "quantifier": "every map with up to 2^22 cells per side, exact or binary64 arithmetic; existence witness", "why_tests_cant": "all maps", "anchors": ["cost_map_ros/src/lib/image_bundles.cpp:toImageBundle", "cost_map_ros/src/lib/image_bundles.cpp:fromImageBundle"]}
{"id": "C57", "title": "resolveResourceName", "statement": "throws invalid_argument iff the name has no '/', otherwise returns the first registered file containing both the part before the first '/' and the part after it, and throws runtime_error iff there is none. LoadImageBundle reads the file of the given name if there is one, even if the name is a resource name as well; otherwise it reads the file resolveResourceName returns (failing if that does not exist), and passes on its exceptions.", "quantifier": "every name and plugin list", "why_tests_cant": "all strings", "anchors": ["cost_map_ros/src/lib/utilities.cpp:resolveResourceName", "cost_map_ros/src/lib/image_bundles.cpp:LoadImageBundle::LoadImageBundle"]}
{"id": "C58", "title": "SaveImageBundle writes once", "statement": "For every sequence of incoming messages the bundle is written at most once, from the first message that converts, and finished is true exactly from then on; messages that fromMessage refuses are skipped; a message that makes the conversion throw stops the node with nothing written.", "quantifier": "every message sequence", "why_tests_cant": "all histories", "anchors": ["cost_map_ros/src/lib/image_bundles.cpp:SaveImageBundle::_costmapCallback"]}
{"id": "C59", "title": "Occupancy relay", "statement": "For every sequence of well-formed messages the relay publishes, per message, exactly one grid per listed layer in order, showing that layer, advertises one publisher per distinct layer name ever seen and never removes one. A message whose numbers of names and arrays differ makes the callback throw out_of_range, leaving its first name advertised.", "quantifier": "every message sequence; in double arithmetic with the origin up to rounding", "why_tests_cant": "all histories", "anchors": ["cost_map_visualisations/src/lib/occupancy_grid.cpp:_costMapCallback"]}
{"id": "C60", "title": "The cost map service always reports success", "statement": "The service callback returns true even when the conversion failed, in which case the response describes an empty zero-resolution map that fromMessage's setGeometry rejects by assertion. With the conversion spelled out: without a robot pose the response is that empty map; a window that reaches or leaves the border of the costmap gives success with a response that has the requested geometry but no layer; a request with a length that is not positive stops the provider at setGeometry's assertions.", "quantifier": "every conversion outcome; every costmap, pose and requested length (for the window: whole cells, exact arithmetic)", "why_tests_cant": "error path", "anchors": ["cost_map_ros/src/lib/converter.cpp:Costmap2DROSServiceProvider::callback"]}
{"id": "C61", "title": "end() designates the last cell", "statement": "CostMapIterator::end() returns an iterator on the last cell, so a loop of the form it != it.end() visits every cell of the map exactly once except the last one (opposite corner), which it always skips. With the clamping boundIndexToRange the loop stops before buffer cell (rows-1, columns-1) instead, and visits nothing when the start index is that cell.", "quantifier": "every size and start index", "why_tests_cant": "A test with a uniform layer cannot notice one skipped cell, and the statement is about every size and start index.", "anchors": ["cost_map_core/src/lib/iterators/cost_map_iterator.cpp:end", "cost_map_core/src/lib/iterators/cost_map_iterator.cpp:operator !="]}
{"id": "C62", "title": "SubmapGeometry and SubmapIterator describe the same submap as getSubmap", "statement": "When the SubmapGeometry constructor reports success, getSubmap with the same request succeeds with the same size, position and length; the reported requested index is the cell of the submap covering the requested position; and a SubmapIterator over the geometry visits each cell of the submap exactly once, standing on the parent cell with the same centre and the same values in every layer. In doubles the constructor succeeds for requests clear of the border, size, position and length agree bit by bit, and centres agree up to rounding.", "quantifier": "every map, start index, requested position and length", "why_tests_cant": "continuum of requests and all wrap cases", "anchors": ["cost_map_core/src/lib/submap_geometry.cpp:SubmapGeometry", "cost_map_core/src/lib/iterators/submap_iterator.cpp:SubmapIterator"]}
{"id": "C63", "title": "Inflation radius in cells", "statement": "In exact arithmetic the inflation radius in cells is the radius in metres divided by the resolution, rounded up: the least whole number of cells that covers it. With floating point a radius of 0.3 m on a 0.1 m map is taken as 4 cells.", "quantifier": "every radius, resolution, in exact arithmetic and, up to one rounding of the radius, in double arithmetic; existence witness for floating point", "why_tests_cant": "continuum; rounding corner cases", "anchors": ["cost_map_core/src/lib/operators/inflation.cpp:Inflate::operator()"]}
{"id": "C64", "title": "Inflation ignores the circular buffer", "statement": "On a map that has been moved, inflation works on neighbours in the buffer: there is a moved map where a cell next to an obstacle on the ground is left free and one four cells away becomes inscribed.", "quantifier": "existence witness", "why_tests_cant": "needs a moved map and obstacles at the wrap-around; no test uses Inflate, and the demo inflates unmoved maps", "anchors": ["cost_map_core/src/lib/operators/inflation.cpp:Inflate::operator()"]}
{"id": "C65", "title": "The service relay sticks to the last single layer", "statement": "Each turn of the service relay publishes the response's only layer if it has exactly one, otherwise the layer of the last such response or, before any, the configured one; if the chosen layer is not in the response, out_of_range ends the node. So after one single-layer response the configured layer is never published again.", "quantifier": "every well-formed response and state of the relay, in exact and double arithmetic; existence witness", "why_tests_cant": "depends on the history of responses", "anchors": ["cost_map_visualisations/src/applications/service_relay.cpp:main"]}
{"id": "C66", "title": "From one node's message to another node's map", "statement": "A map published as a message, saved by SaveImageBundle and loaded by LoadImageBundle is published again with the same frame, size and set of layers, sorted by name, and with every cost changed exactly as in C55.", "quantifier": "every map with up to 2^22 cells per side, exact or binary64 arithmetic", "why_tests_cant": "no test runs the whole chain", "anchors": ["cost_map_ros/src/lib/image_bundles.cpp:SaveImageBundle::_costmapCallback", "cost_map_ros/src/lib/image_bundles.cpp:LoadImageBundle", "cost_map_ros/src/lib/converter.cpp:toMessage"]}
{"id": "C67", "title": "No call of any package breaks a map", "statement": "After any sequence of cost_map operations, getSubmap, fromMessage, addLayerFromROSImage, fromImageBundle, fromCostmap2DROS, fromCostmap2DROSAtRobotPose, Inflate and Deflate calls, including calls that throw, the layer list and the stored layers agree, all layers have the map's size, every cell of every listed layer can be read, and no computed cost is outside 0..255 if none handed in is.", "quantifier": "every finite history of calls with any arguments, every priority queue order, exact or binary64 arithmetic", "why_tests_cant": "the invariant has to survive all histories", "anchors": ["cost_map_core/src/lib/cost_map.cpp", "cost_map_core/src/lib/operators/inflation.cpp", "cost_map_ros/src/lib/converter.cpp", "cost_map_ros/src/lib/image_bundles.cpp", "cost_map_ros/src/lib/converter.cpp:fromCostmap2DROS"]}
{"id": "C68", "title": "Positions and indices in double arithmetic", "statement": "With IEEE double rounding, on a map of any start index whose coordinates stay below 2^44 cells from the origin: the geometry set up by setGeometry is the requested one up to half a cell; getPosition returns the true centre up to a blur of 16 units in the last place of the farthest coordinate; the cell found again at that position is the same cell; a position reported inside is inside up to the blur; and a position inside by more than the blur is looked up in a cell whose true centre is within half a cell plus the blur. A position within the blur of the border can be looked up in a cell at the opposite end of the map.", "quantifier": "every map geometry up to 2^44 cells from the origin, every start index, every index and position", "why_tests_cant": "tests use a few round numbers where rounding does not show", "anchors": ["cost_map_core/src/lib/cost_map.cpp:setGeometry", "cost_map_core/src/lib/cost_map.cpp:getPosition", "cost_map_core/src/lib/cost_map.cpp:getIndex", "cost_map_core/src/lib/cost_map.cpp:isInside"]}
{"id": "C69", "title": "Moving a map in double arithmetic", "statement": "With IEEE double rounding a move shifts the map by a whole number of cells up to the blur, ends within half a cell plus the blur of the target, keeps the values of the cells that stay in view and clears exactly the others. After any number n of moves the drift is at most n blurs, and as long as n+1 blurs are at most a quarter of a cell, every cell that stayed in view all the time shows at its centre the value it had at the start, and every cell that was out of view once shows NO_INFORMATION in the cleared layers.", "quantifier": "every geometry and start index up to 2^44 cells from the origin, every finite sequence of targets, wrapping boundIndexToRange", "why_tests_cant": "drift only shows after very many moves", "anchors": ["cost_map_core/src/lib/cost_map.cpp:move"]}
{"id": "C70", "title": "Submaps in double arithmetic", "statement": "With IEEE double rounding, getSubmap on a request that stays clear of the border by two blurs succeeds: every cell of the submap has the place (up to the blur) and the values of a cell of the map, and the submap covers the request and reaches less than a cell plus the blur beyond it. Requests that reach over the border can fail although their centre is inside the map.", "quantifier": "every geometry and start index up to 2^44 cells from the origin, every request clear of the border", "why_tests_cant": "needs all positions relative to the cell grid", "anchors": ["cost_map_core/src/lib/cost_map.cpp:getSubmap"]}
{"id": "C71", "title": "Shape iterators in double arithmetic", "statement": "With IEEE double rounding, on a map within 2^44 cells of the origin: a circle, ellipse or polygon whose bounding box (for the ellipse, the box of 6/5 of its longer axis around the centre) stays two blurs (2^-53 * 32 * map extent) clear of the border is visited without a fault and without repetition. Every cell a circle iterator visits has its centre within the radius plus two blurs, and on a map that was not moved every cell with its centre within the radius less two blurs is visited; the same holds for an ellipse with its axes scaled by 1 +- tau, where tau times each axis is at least ten blurs; a polygon iterator visits a cell whose position is clear of the polygon's border exactly if the position is in the polygon. For shapes that reach over the border this is false: on a map with a corner at the origin, a circle around a point of the map and a polygon around that corner make the constructor use an uninitialised index. On a map that was moved, the cells of the upper and lower corner of the box of a circle or ellipse (the cells the corners lie in up to a blur) decide: if along both axes the upper corner's index does not exceed the lower corner's, the same cells are visited as on a map that was not moved; otherwise nothing but the cell of the upper corner is visited, and that cell is if its centre is in the shrunk shape.", "quantifier": "for all maps, circles, ellipses and polygons clear of the border, all rounding errors; the border case is refuted", "why_tests_cant": "needs every combination of rounding errors, and a border at the origin for the failure", "anchors": ["cost_map_core/src/lib/iterators/circle_iterator.cpp:findSubmapParameters", "cost_map_core/src/lib/iterators/polygon_iterator.cpp:findSubmapParameters", "cost_map_core/src/lib/iterators/ellipse_iterator.cpp:isInside", "cost_map_core/src/lib/iterators/ellipse_iterator.cpp:findSubmapParameters", "cost_map_core/src/lib/iterators/circle_iterator.cpp:isInside"]}
{"id": "C72", "title": "Loading a hand-written image bundle", "statement": "fromImageBundle throws and leaves the map untouched if the file cannot be opened, if one of the six required keys is missing, or if any layer entry lacks its name or its file; it stops at setGeometry's assertions if the resolution is not positive or a cell count is 0. Every other bundle is loaded: frame, centre, float resolution and cell counts are those of the file, start index and stamp are 0, the layers of the file are appended sorted by name, of several entries for one layer the first decides, a layer whose image is missing or of another size is silently added as all unknown, every other layer shows the cost of its pixels, and layers that the map had and the file does not mention become unknown.", "quantifier": "every yaml content, every set of 8-bit images with 1, 3 or 4 channels, every target map; cell counts up to 2^22", "why_tests_cant": "the tests load one well-formed bundle", "anchors": ["cost_map_ros/src/lib/image_bundles.cpp:fromImageBundle"]}
{"id": "C73", "title": "A whole costmap_2d becomes a cost map cell by cell", "statement": "fromCostmap2DROS succeeds for every non-empty costmap: the cost map takes its frame, resolution and cell counts, its start index is 0, the cost of costmap cell (x, y) ends up in cell (nx-1-x, ny-1-y) of the named layer, whose centre is the centre of the costmap cell, and the lower corner of the map is the origin of the costmap (with doubles, up to the rounding error stated). Layers that the cost map already had stay as layers but become unknown; the timestamp is left as it was. With doubles, a resolution that is a power of two and an origin that is a whole number of cells the map lies exactly on the costmap.", "quantifier": "every costmap up to 2^22 x 2^22 cells, every target map and layer name, exact or double arithmetic", "why_tests_cant": "the test compares a few cells of one costmap at the origin", "anchors": ["cost_map_ros/src/lib/converter.cpp:fromCostmap2DROS"]}
{"id": "C74", "title": "A window of a costmap_2d around the robot", "statement": "In exact arithmetic and for lengths that are a whole number of cells, fromCostmap2DROSAtRobotPose gives a map of that many cells on the grid of the costmap whose centre is within half a cell of the robot on each axis. It returns true exactly when the window lies in the costmap and does not touch its upper border on either axis; then every cell of the layer shows the cost of the costmap cell with the same centre. Otherwise it returns false, has already emptied the target map and given it the new geometry, and adds no layer. Without a robot pose it returns false and changes nothing; for a length that is not positive it stops at setGeometry's assertions. For other lengths the costs can be out of place by half a cell. With doubles, a resolution that is a power of two and an origin that is a whole number of cells all of this holds too, except that the centre can be off by a further rounding error. With doubles and decimal resolutions costs can be shifted by a cell, and the call can return true without having added the layer.", "quantifier": "every costmap, pose, window size in cells, target map and layer name; refutations by example for fractional lengths and doubles", "why_tests_cant": "the tests use a resolution of 0.5, windows well inside, and lengths of whole cells", "anchors": ["cost_map_ros/src/lib/converter.cpp:fromCostmap2DROSAtRobotPose"]}
{"id": "C75", "title": "Copies of circle, ellipse and polygon iterators share their progress", "statement": "After any sequence of constructions, copies or assignments and increments of circle, ellipse and polygon iterators held in variables, a variable stands at the cell number n of the visits of its shape, where n counts the increments of all variables that were copies of the same iterator at that time, and is past the end once n reaches the number of visits. Two variables compare as different exactly if they do not come from the same construction, wherever they stand. So a copy does not remember a place, two iterators over the same shape at the same cell count as different, and a nested loop over pairs started from a copy sees no pair of different cells.", "quantifier": "every number of variables, every sequence of calls, every shape whose loop terminates without fault (C28-C31, C71), any arithmetic", "why_tests_cant": "the tests never copy an iterator", "anchors": ["cost_map_core/src/lib/iterators/circle_iterator.cpp", "cost_map_core/src/lib/iterators/ellipse_iterator.cpp", "cost_map_core/src/lib/iterators/polygon_iterator.cpp"]}
{"id": "C76", "title": "What the demo node inflations shows", "statement": "Given a complete bundle that names an image for layer obstacle_costs, the node publishes three occupancy grids with the frame, size and resolution of the bundle, mirrored along both axes: the first shows the image; the second shows 100 exactly where the image is lethal, never less than the image where that is known, at least 99 wherever the Manhattan distance to a lethal pixel is at most 0.3 m, turns unknown pixels into 99 or leaves them, and differs from the first only within 0.8 m rounded up to whole cells of a lethal pixel; the third is 100 where the second is, unknown where the second is, and free elsewhere, so unknown pixels near obstacles end up free. The costs around obstacles fall off as 252 e^(-5 (d - 0.3)) with the distance d in metres. Without a bundle, with a key missing, or without that layer, it ends with EXIT_FAILURE and publishes no grid.", "quantifier": "every bundle with cells of at least 1/2048 m, every tie-break of the queue, every exponential and hypot within the stated bounds; real or double arithmetic with float tables", "why_tests_cant": "all images and sizes; composition of loading, inflation, deflation and conversion", "anchors": ["cost_map_demos/src/applications/inflations.cpp:main", "cost_map_core/src/lib/operators/inflation.cpp:operator()", "cost_map_ros/src/lib/image_bundles.cpp:LoadImageBundle", "cost_map_ros/src/lib/converter.cpp:toOccupancyGrid"]}
{"id": "C77", "title": "The striped costmaps of the demo", "statement": "ROSCostmapServer's filling loop gives every row of a costmap n >= 2 cells wide the same costs: the unknown cost in the last column, the lethal cost in the one before, and in column x before those a cost below the inscribed one that is the whole part of 253 (x + 1) / n in exact arithmetic; with doubles it can be one less when that number is whole (refuted by example: the first of 253 columns). The costs never decrease along the row. Size, resolution and origin are unchanged. For a costmap one cell wide the loop runs past the end, to a cost that does not fit a byte. The printing function prints one line for each x, with the costs along y.", "quantifier": "every costmap with fewer than 2^32 cells, exact and double arithmetic", "why_tests_cant": "the demo and the tests use 8 and 10 columns only, where rounding does not show", "anchors": ["cost_map_demos/src/lib/from_ros_costmaps.cpp:ROSCostmapServer::ROSCostmapServer", "cost_map_demos/src/lib/utilities.cpp"]}
{"id": "C78", "title": "Costmaps shown as occupancy grids", "statement": "Converting a costmap_2d to a cost map and that to an occupancy grid, whole or a window around the robot, gives a grid in the costmap's frame in which every cell has the occupancy of the cost of the costmap cell with the same centre, and whose origin is that of the costmap or of the window. The demo from_ros_costmaps publishes five such grids if the three windows it asks for lie inside their costmaps; otherwise it publishes the grids before the first window that does not, and then reads the name of a layer that does not exist.", "quantifier": "every costmap, robot pose, window in whole cells and previous message content; exact arithmetic, or doubles with a resolution that is a power of two and an origin on the grid", "why_tests_cant": "the demo is only looked at in rviz, with fixed poses", "anchors": ["cost_map_demos/src/applications/from_ros_costmaps.cpp:main", "cost_map_ros/src/lib/converter.cpp:fromCostmap2DROS", "cost_map_ros/src/lib/converter.cpp:toOccupancyGrid"]}
{"id": "C79", "title": "The broadcaster of transforms repeats the first transform of each name", "statement": "In every run of a TransformBroadcaster the thread sends whole rounds over the added frames, in the order of their names, each with the transform first added under that name; a second startBroadCastingThread terminates the program, and a new frame added after the start is a data race while a known one is ignored. Destroying a broadcaster that was never started terminates the program; one that was started waits until shutdown() was called or ROS is down, and then returns after at most the rest of the round.", "quantifier": "every interleaving of calls, the end of ROS and steps of the thread", "why_tests_cant": "depends on the interleaving of two threads and on all call orders", "anchors": ["cost_map_demos/src/lib/utilities.cpp:TransformBroadcaster", "cost_map_demos/src/lib/from_ros_costmaps.cpp:broadcastCostmap2DROSTestSuiteTransforms"]}
{"id": "C80", "title": "Index arithmetic stays within int", "statement": "On a map of fewer than 2^29 rows and columns no int overflows, no conversion of a double to int is out of range and no int division is by zero: in loops over the whole map, over a window inside it and along a line between two cells; in getPosition, in getIndex for positions up to 2^29 cells from the centre, in the size and the blocks of a window; and in a move of up to 2^29 cells. Linear indices fit as well if the map has fewer than 2^31 cells. The results are those of unbounded integers. Without the bounds this fails: a move by 2^31 cells converts a number that is no int, the linear index of the last of 2^16 by 2^16 cells overflows, and so does the end index of a moved map with 2^31 - 1 rows.", "quantifier": "every map, start index, cell, window, position and move within the bounds, in exact arithmetic and doubles", "why_tests_cant": "no test uses maps or moves near the bounds, and overflow is undefined behaviour that may go unnoticed", "anchors": ["cost_map_core/src/lib/cost_map.cpp:move", "cost_map_core/src/lib/iterators/cost_map_iterator.cpp:operator ++", "cost_map_core/src/lib/iterators/submap_iterator.cpp:operator ++", "cost_map_core/src/lib/iterators/line_iterator.cpp:operator ++"]}
{"id": "C81", "title": "The repository's own tests", "statement": "Every assertion of the unit tests in cost_map_core/test, cost_map_ros/src/tests/gtests and cost_map_demos/src/test/rostests holds in double arithmetic, whether boundIndexToRange wraps or clamps, with one exception: the test StartAndEndOutsideMapWithoutIntersectingMap asks a LineIterator for isPastEnd() whose constructor has left the members it compares uninitialised.", "quantifier": "all assertions of the tests, both behaviours of boundIndexToRange", "why_tests_cant": "a test cannot tell a correct answer from a lucky read of uninitialised memory, and runs against one version of grid_map", "anchors": ["cost_map_core/test/cost_map.cpp", "cost_map_core/test/line_iterator.cpp", "cost_map_core/test/ellipse_iterator.cpp", "cost_map_core/test/submap_iterator.cpp", "cost_map_core/test/polygon_iterator.cpp", "cost_map_ros/src/tests/gtests/to_grid_map.cpp", "cost_map_demos/src/test/rostests/from_ros_costmaps/from_ros_costmaps.cpp"]}
{"id": "C82", "title": "Messages that are not well-formed", "statement": "fromMessage does not check the start index of a message. A loop over a map whose start index is outside visits that index first, and then every cell once except the one equal to it modulo the size; so toOccupancyGrid of a converted message succeeds if the start index is in the map, and otherwise reads outside the layer. A build without assertions (NDEBUG) converts every message that breaks no assertion the same way, but also accepts arrays of the wrong size. at() then reads the element at row + column * rows, with the rows that the array declares; this is outside the layer if it is not below the declared number of cells, and always for an array labelled row-major. A 1x1 array for a 3x2 map is an instance; with assertions it is rejected.", "quantifier": "every message, every non-empty map size and start index, every cell, in exact arithmetic and doubles; at() without assertions is modelled as a bounds check against the memory of the layer", "why_tests_cant": "the tests only convert messages made by toMessage, and an out-of-bounds read may return a plausible value", "anchors": ["cost_map_ros/src/lib/converter.cpp:fromMessage", "cost_map_ros/src/lib/converter.cpp:toOccupancyGrid", "cost_map_core/src/lib/cost_map.cpp:add", "cost_map_core/src/lib/iterators/cost_map_iterator.cpp:operator ++"]}
{"id": "C83", "title": "Points and vectors of cells", "statement": "getPosition3 throws out_of_range for a missing layer and returns false for a cell that is NO_INFORMATION; otherwise it returns the centre of the cell, in doubles up to the tolerance of C68, with the cost of the layer as third coordinate, and looking that position up leads back to the cell. getVector returns the costs of the layers prefix+x, prefix+y and prefix+z in this order if none of them is NO_INFORMATION there, and false otherwise; a missing layer throws out_of_range, unless an earlier one is NO_INFORMATION. An index outside the map makes both read out of bounds.", "quantifier": "every map, layer, prefix and index, in exact arithmetic and doubles", "why_tests_cant": "no test calls either function", "anchors": ["cost_map_core/src/lib/cost_map.cpp:getPosition3", "cost_map_core/src/lib/cost_map.cpp:getVector"]}
{"id": "C84", "title": "Inflation with libstdc++'s priority queue", "statement": "The heap algorithms behind std::priority_queue in libstdc++ return after any pushes and pops an element of least distance of those still in the queue, and report an empty queue only when everything has been popped. So every statement of C36 to C43 about inflation holds with this queue, and so does the counterexample of C39: in a 3x4 map with two obstacles a cell closer than the radius to one of them is not inflated.", "quantifier": "every sequence of pushes and pops, every map, layer, radius and cost computer of C36 to C43", "why_tests_cant": "the order of equal distances depends on the heap, and no test inflates around two obstacles", "anchors": ["cost_map_core/include/cost_map_core/operators/inflation.hpp:CellData", "cost_map_core/src/lib/operators/inflation.cpp:enqueue", "cost_map_core/src/lib/operators/inflation.cpp:operator()"]}
{"id": "C85", "title": "A cost computer that throws spoils the Inflate object", "statement": "If the cost computer throws while the table of a new radius is filled, the exception leaves the destination layer as a copy of the source layer, the other layers and the geometry unchanged. The next call on this object with the same radius in cells, on any map and with any computer, does not call the computer: around a single obstacle it uses the costs computed before the exception, and for the other offsets whatever the memory of the table held. So it can leave a cell within the radius free. A computer that does not throw inflates as in C36 to C43, and is not called if the radius in cells is that of the last call.", "quantifier": "every map, layer, radius below 2^32-2 cells, computer, content of fresh memory, earlier calls of the object and every later call with the same radius in cells", "why_tests_cant": "no test passes a computer that throws, and fresh memory is often zero", "anchors": ["cost_map_core/src/lib/operators/inflation.cpp:operator()", "cost_map_core/src/lib/operators/inflation.cpp:computeCaches"]}
{"id": "C86", "title": "Image bundles whose yaml file has any shape", "statement": "fromImageBundle either loads a yaml document, exactly as described in C55, C56 and C72, or refuses it and leaves the map as it was. It loads it if all six required keys are scalars that convert and every entry of layers names a layer and a file. Layers may be a sequence, or a map with the keys 0, 1, 2, ...; if it is missing, null or a scalar, the bundle loads without layers and without an error. A file that cannot be opened, a document or an entry that is a scalar, and a value of the wrong type raise an exception of yaml-cpp that is not a std::logic_error; a syntax error and a missing key raise std::logic_error. A missing key is reported before any value is converted, and the first bad entry of layers decides.", "quantifier": "every document of scalars, sequences and maps, every conversion of scalars to finite numbers, every map to load into", "why_tests_cant": "no test loads a yaml file that is not well-formed", "anchors": ["cost_map_ros/src/lib/image_bundles.cpp:fromImageBundle"]}
{"id": "C87", "title": "When the cost computer is called", "statement": "A call of Inflate with a new radius of r cells calls the cost computer (r+2)*(r+2) times, once for each offset (i, j) with 0 <= i, j <= r+1, row by row, with the distance of the offset in metres; an exception ends this. With the radius of the last call, or without the source layer, it is not called. Around a single obstacle the cost of a cell is the answer to the call for its offset, whatever state the computer keeps. A computer whose answers do not depend on its state inflates as in C85 and C36 to C43.", "quantifier": "every computer with any state, every map, layer, radius below 2^32-2 cells and earlier calls of the object", "why_tests_cant": "no test uses Inflate, and the demo has only the stateless ROS computer", "anchors": ["cost_map_core/src/lib/operators/inflation.cpp:computeCaches", "cost_map_core/src/lib/operators/inflation.cpp:operator()"]}
{"id": "C88", "title": "Geometries that only an assertion rejects", "statement": "In a build without assertions, setGeometry with a resolution other than 0 returns exactly if neither quotient of length and resolution is -1/2 or less; the map then has the rounded quotients as its size, length = size * resolution, and only cells without information. Resolution 0 and smaller quotients have undefined behaviour. On a map whose length is 0 or negative along an axis no position is inside: getIndex returns false, atPosition throws, getSubmap fails. So with negative lengths and a negative resolution there is a map with cells that a loop visits and whose centres getPosition knows, but none of the centres is inside; getIndex computes the right index and returns false. fromMessage accepts such a message without assertions.", "quantifier": "every map, length, resolution and position in exact arithmetic; that no position is inside, for every rounding; the message is a concrete case in doubles", "why_tests_cant": "the tests are built with assertions, and only positive geometries are tried", "anchors": ["cost_map_core/src/lib/cost_map.cpp:setGeometry", "cost_map_core/src/lib/cost_map.cpp:getIndex", "cost_map_core/src/lib/cost_map.cpp:getPosition", "cost_map_ros/src/lib/converter.cpp:fromMessage"]}
{"id": "C89", "title": "One Inflate object over its whole life", "statement": "After any sequence of calls on an Inflate object, with any maps, radii and cost computers, some of them stateful or throwing, the next call is determined by the radius in cells and the costs of the last call that found its source layer. With the same radius it does not call the computer and uses the same costs, even those of a call that ended with an exception. With another radius it calls the computer offset by offset, and the costs are its answers; after an exception the remaining costs are whatever fresh memory held. A call whose computer does not throw returns with the destination layer inflated with these costs: each cell keeps its value or is raised to the cost of its offset from an obstacle within the radius, cells out of reach of all obstacles keep it, cells within the radius in Manhattan distance are inflated from an obstacle at most that far away, and a single obstacle is inflated exactly. A call whose computer throws leaves a copy of the source layer there. Other layers and the geometry never change. Without the source layer nothing changes at all.", "quantifier": "every sequence of calls, every map, layer, radius below 2^32-2 cells, computer with any state, content of fresh memory and priority queue", "why_tests_cant": "no test uses Inflate, and the demo never passes a computer that throws", "anchors": ["cost_map_core/src/lib/operators/inflation.cpp:operator()", "cost_map_core/src/lib/operators/inflation.cpp:computeCaches", "cost_map_core/src/lib/operators/inflation.cpp:enqueue"]}
{"id": "C90", "title": "How far inflation may be from the Euclidean distance", "statement": "Whatever the order of equally distant queue elements, a cell no further from a lethal cell than the radius divided by sqrt(2) is inflated, with the cost of a lethal cell at most sqrt(2) times as far as the nearest one. The factor is attained: there is a map and an order for which a cell gets the cost of distance 2 although a lethal cell is at distance sqrt(2), and one with a diagonal wall where a cell at distance sqrt(18) is not inflated with a radius of 5. With libstdc++'s queue, writing one more lethal cell into a map can lower the inflated cost of another cell to free space.", "quantifier": "every map, layer, radius, cost computer, queue order and environment for the guarantee; existence witnesses for the limits", "why_tests_cant": "the guarantee ranges over all obstacle layouts and queue orders; layouts at the limit must be searched for", "anchors": ["cost_map_core/src/lib/operators/inflation.cpp:enqueue", "cost_map_core/src/lib/operators/inflation.cpp:operator()"]}
{"id": "C91", "title": "Erasing a layer by a reference into the list of layers", "statement": "getLayers() returns a reference to the map's own list, and erase takes the name by reference. After map.erase(map.getLayers()[k]) on a map with basic layers, layer k and its data are gone, but the name removed from the basic layers is that of layer k+1: a basic layer k stays listed as basic, and clearBasic() throws out_of_range from then on. If k is the last layer, erase reads a destroyed string. Without basic layers the call is the same as an erase with a copy of the name.", "quantifier": "every map with consistent layers, every slot, every list of distinct basic layers", "why_tests_cant": "needs a call whose argument is part of the object it changes; the visible effect comes later, in another function", "anchors": ["cost_map_core/src/lib/cost_map.cpp:erase", "cost_map_core/src/lib/cost_map.cpp:getLayers"]}
{"id": "C92", "title": "Merging a map into itself", "statement": "map.extendToInclude(map) changes nothing, and map.addDataFrom(map, ...) returns true and changes nothing either, whatever its flags, except that layers asked for by name and missing are added, unknown everywhere. In doubles this holds for maps within 2^44 cells of the origin; 2^53 cells away a map overwrites its own cells with those of their neighbours.", "quantifier": "every non-empty consistent map, wrapped or not, every combination of flags, every list of layers, in exact arithmetic and doubles", "why_tests_cant": "ranges over all maps, flags and positions; rounding errors show only far from the origin", "anchors": ["cost_map_core/src/lib/cost_map.cpp:addDataFrom", "cost_map_core/src/lib/cost_map.cpp:extendToInclude"]}
{"id": "C93", "title": "SubmapIterator over any region, in particular those of a move", "statement": "A SubmapIterator loop over a region that move() reported visits exactly the buffer cells of that region, each once, although such a region need not be a window of the map. In general a loop over a window of h x w > 0 cells that starts in the map takes h*w steps, row by row, wherever the window ends: on a map with start index (0, 0) what sticks out yields indices outside the buffer, on a moved map it comes back in on the opposite side. A window without cells is visited once, at its first index.", "quantifier": "every map size, start index, window and move, for both kinds of boundIndexToRange, in any arithmetic", "why_tests_cant": "tests iterate over a few windows that fit, of maps that were not moved", "anchors": ["cost_map_core/src/lib/iterators/submap_iterator.cpp:operator++", "cost_map_core/src/lib/cost_map.cpp:move"]}
{"id": "C94", "title": "A larger inflation radius does not only add", "statement": "With one lethal cell, Inflate with a larger radius gives every cell within the smaller radius the same cost as before, and leaves the cells beyond the larger one as they are. With more lethal cells a larger radius can lower the cost of a cell: two lethal cells on a 4 x 3 map suffice, with the priority queue of libstdc++.", "quantifier": "every map, radius pair, cost computer and order among equal distances for one lethal cell; a concrete map for the counterexample", "why_tests_cant": "tests compare the costs of one call with fixed values, and never two radii on the same map", "anchors": ["cost_map_core/src/lib/operators/inflation.cpp:operator()", "cost_map_core/src/lib/operators/inflation.cpp:enqueue"]}
{"id": "C95", "title": "Infinite and NaN positions, lengths and radii", "statement": "A position with an infinite or NaN coordinate is outside every map, and a map at such a position contains no position. getIndex, atPosition and move are undefined for them, because they convert to int before the check or without one; where that conversion gives some int, getIndex returns false and atPosition throws, but LineIterator between two positions, one of which is not finite, never returns. setGeometry aborts for a NaN length or resolution, is undefined for an infinite length, makes a map without cells and with length NaN for an infinite resolution, and accepts every position. Merging from or into a map at an infinite or NaN position copies nothing and returns true. An inflation radius of NaN or minus infinity is 0 cells, an infinite one is undefined. For finite numbers, on maps within 2^44 cells of the origin, none of this and no overflow occurs, and the results are those of arithmetic without an exponent range.", "quantifier": "every position, length and map with any of infinities and NaN, exact or double arithmetic with any overflow threshold", "why_tests_cant": "tests use ordinary positions; undefined conversions happen to give a fixed int on the machine at hand", "anchors": ["cost_map_core/src/lib/cost_map.cpp:getIndex", "cost_map_core/src/lib/cost_map.cpp:setGeometry", "cost_map_core/src/lib/cost_map.cpp:move", "cost_map_core/src/lib/cost_map.cpp:addDataFrom", "cost_map_core/src/lib/iterators/line_iterator.cpp:getIndexLimitedToMapRange", "cost_map_core/src/lib/operators/inflation.cpp:operator()"]}
{"id": "C96", "title": "Iterators incremented past the end", "statement": "After k increments a CostMapIterator or SubmapIterator is past the end exactly when k is at least the number of cells of its loop, and it stands on cell number k of that loop or, once past the end, on the last one: ++ no longer changes it. ++ does not change a past-the-end circle, ellipse or polygon iterator either; its index is the last cell of the window, which need not be in the shape. A LineIterator stays past the end, but each ++ moves its index one cell further from the end of the line (k increments past the last cell put it k cells away in the larger coordinate), so that it leaves every map. ++ and * on a past-the-end SpiralIterator are undefined.", "quantifier": "every map size, start index, window and shape, every pair of line ends, every number of increments", "why_tests_cant": "tests stop at isPastEnd()", "anchors": ["cost_map_core/src/lib/iterators/cost_map_iterator.cpp:operator ++", "cost_map_core/src/lib/iterators/submap_iterator.cpp:operator ++", "cost_map_core/src/lib/iterators/circle_iterator.cpp:operator ++", "cost_map_core/src/lib/iterators/line_iterator.cpp:operator ++", "cost_map_core/src/lib/iterators/spiral_iterator.cpp:operator ++"]}
{"id": "C97", "title": "Image messages and image files, byte by byte", "statement": "addLayerFromROSImage gives cell (i, j) the cost of the samples at byte i * step + j * (bytes per pixel) of the message, in the byte order it declares; padding at the end of rows is skipped. A message with an unknown encoding, a step shorter than a row or data of another length than height * step changes nothing and gives false. fromImageBundle does not look at the bits per channel: cell (i, j) gets the cost of bytes n * j onwards of row i of the file, n being the number of channels. For files with 8 bits that is the pixel (i, j). For gray files with 16 bits, on a little-endian host, columns 2 k and 2 k + 1 get the cost of the low and high byte of column k, and the right half of the file is not used; with an alpha channel, column 2 k is unknown whenever the green of column k is below half, however opaque it is.", "quantifier": "every message, every file of the map's size with 8 or 16 bits and 1 to 4 channels, every map, exact or double arithmetic", "why_tests_cant": "tests use 8-bit files and messages made by cv_bridge itself", "anchors": ["cost_map_ros/src/lib/converter.cpp:addLayerFromROSImage", "cost_map_ros/src/lib/image_bundles.cpp:fromImageBundle"]}
{"id": "C98", "title": "Bundles on a file system: writes that fail go unnoticed", "statement": "toImageBundle(f, map) writes f and, in the folder of f, one file per layer, named after the layer with .png, as far as they can be opened for writing, and no other file. It returns in the same way if some or all of them cannot be written; SaveImageBundle then counts as finished and ignores later messages. If f is written, fromImageBundle(f) succeeds: the layers whose image was written come back with the costs of C55, the other layers (names with a slash into a folder that does not exist, say) show whatever their file held before and are unknown if there was none. If f has the name of one of the images, loading throws std::logic_error. Of layers named b and /b only the second survives.", "quantifier": "every consistent map, every set of files, every set of paths that can be written, every f without doubled slashes before its last part, layer names that do not start with a slash (except for the last sentence), exact or double arithmetic", "why_tests_cant": "tests save into one existing folder under names made for it", "anchors": ["cost_map_ros/src/lib/image_bundles.cpp:toImageBundle", "cost_map_ros/src/lib/image_bundles.cpp:fromImageBundle", "cost_map_ros/src/lib/image_bundles.cpp:SaveImageBundle::_costmapCallback"]}
{"id": "C99", "title": "Image bundles with infinite numbers, NaN and numbers out of range", "statement": "A yaml file whose centre has infinite or NaN coordinates loads like the same file with an ordinary centre: same layers, costs, size, lengths and resolution; only the position differs, and then no position is inside the map. A resolution of NaN or minus infinity fails an assertion, and so does plus infinity with no cells; plus infinity with cells, and a finite resolution whose product with a number of cells does not fit a float, convert NaN or infinity to int (undefined behaviour). A resolution that does not fit a float and a centre that does not fit a double are refused with an exception and the map is left as it was; so is a file without one of the six required keys, whatever its numbers.", "quantifier": "every yaml file (with all its keys, except for the last clause), any files beside it, any map to load into; for the first sentence resolutions in (0, 2^100] and 1 to 2^22 cells a side, exact or double arithmetic; for the others any resolution and number of cells as described, any rounding", "why_tests_cant": ".nan and .inf are legal yaml numbers, but no test has a file with them, and the undefined cases give no reliable result", "anchors": ["cost_map_ros/src/lib/image_bundles.cpp:fromImageBundle", "cost_map_core/src/lib/cost_map.cpp:CostMap::setGeometry"]}
{"id": "C100", "title": "Negative radii and axes", "statement": "Nothing rejects a negative radius. On a map with start index (0,0) a CircleIterator with radius R < 0 visits at most one cell: the one with the lower corner (x+R, y+R) of the box around the circle, if its centre is within |R|; for |R| of two cells or more, with that corner in the map, it visits none. On any map, moved or not, and for a radius of either sign, it visits the cells of the circle in the rectangle of the buffer from the cell of (x+R, y+R) to that of (x-R, y-R) (both bounded to the map), each once, or only the first of the two if that rectangle is empty. An EllipseIterator does not depend on the signs of its axes. A SpiralIterator with a radius from minus half a cell to 0 visits the cell of its centre; with a radius of minus one cell or less its constructor converts a negative number to unsigned int, which is undefined.", "quantifier": "every map, centre and negative radius or axis; exact arithmetic for circles, exact or double for ellipses and spirals", "why_tests_cant": "the iterators take any double; tests use positive radii", "anchors": ["cost_map_core/src/lib/iterators/circle_iterator.cpp:CircleIterator::findSubmapParameters", "cost_map_core/src/lib/iterators/ellipse_iterator.cpp:EllipseIterator::EllipseIterator", "cost_map_core/src/lib/iterators/spiral_iterator.cpp:SpiralIterator::SpiralIterator"]}
{"id": "C101", "title": "Changing the map inside a loop over it", "statement": "Iterators copy the geometry when they are made. Whatever the body of a loop does to the map, a CostMapIterator hands it the cells the map had at the beginning, each once, until the body fails; submap, circle, ellipse, polygon, line (between indices) and spiral iterators hand it the cells they would have visited on the unchanged map. If the body only moves the map and writes cells, the loop ends normally, every cell is in range when it is visited, and no two iterations are at the same position, taken at the time of the iteration; each cell is where it was at the beginning or a whole number of map lengths from there. With double rounding, and targets within 2^44 cells of the origin, such a loop over a map ends normally as well, and two iterations are at least half a cell apart as long as one blur for each call and one more stay below a quarter of a cell. Three expectations are false: a loop whose body makes the map smaller accesses cells out of range, and a loop over a circle whose body moves the map visits cells that are outside the circle by then; and with the clamping boundIndexToRange of grid_map 1.6 two iterations can be at the same position.", "quantifier": "every map and every body; for the claims on moves every body made of moves and writes, chosen from the cell and the map, in exact or double arithmetic (the multiples of the map length: exact) with the wrapping boundIndexToRange", "why_tests_cant": "bodies and targets of moves are unbounded in number; tests do not change a map while they iterate over it", "anchors": ["cost_map_core/src/lib/iterators/cost_map_iterator.cpp:CostMapIterator::CostMapIterator", "cost_map_core/src/lib/iterators/circle_iterator.cpp:CircleIterator::CircleIterator", "cost_map_core/src/lib/iterators/ellipse_iterator.cpp:EllipseIterator::EllipseIterator", "cost_map_core/src/lib/iterators/polygon_iterator.cpp:PolygonIterator::PolygonIterator", "cost_map_core/src/lib/cost_map.cpp:CostMap::move"]}

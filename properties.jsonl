{"id": "C01", "title": "Lookup tables decode to the original array", "statement": "create_lookup_table(array) returns strictly increasing values that are exactly the distinct entries of the array, and values[indices] reproduces the array entry by entry, provided the array has at most 256 distinct entries; with more distinct entries the uint8 indices wrap and decoding returns wrong values.", "quantifier": "all arrays (any length, any entries, including +inf)", "why_tests_cant": "The claim is about every array; the boundary (256 distinct entries) is never reached by the shipped tests.", "anchors": ["lattpy/utils.py:create_lookup_table"]}
{"id": "C02", "title": "min_dtype can hold the data", "statement": "min_dtype(a, signed) fails only for an empty array. The dtype it returns can represent every entry of a. With signed=True it is a signed type and no wider than any signed machine type that holds every entry and its negative; with signed=False it is the narrowest signed type that holds every entry if some entry is negative, and the narrowest unsigned type otherwise (python object type beyond 64 bits).", "quantifier": "all non-empty integer arrays inside the int64/uint64 range, both values of signed", "why_tests_cant": "Sign/width boundaries form an infinite family; tests pick ten values.", "anchors": ["lattpy/utils.py:min_dtype"]}
{"id": "C03", "title": "chain links consecutive items and closes cycles", "statement": "chain(items) returns exactly the consecutive pairs of items in order; with cycle=True the pair (last, first) is added; for an empty sequence with cycle=True an IndexError is raised and otherwise never.", "quantifier": "all sequences of any length and element type", "why_tests_cant": "Tests use three-element lists only.", "anchors": ["lattpy/utils.py:chain"]}
{"id": "C04", "title": "frmt_num scales by the right prefix", "statement": "frmt_num(num, div) prints num divided by div^k with the k-th prefix, k being the smallest exponent for which the magnitude is below div (or 8 when there is none), so value * div^k = num.", "quantifier": "all numbers and all div > 1", "why_tests_cant": "Infinitely many inputs; no test covers the function.", "anchors": ["lattpy/utils.py:frmt_num", "lattpy/utils.py:frmt_bytes"]}
{"id": "C05", "title": "Every library error can be displayed", "statement": "str() of NotAnalyzedError, NoConnectionsError and NotBuiltError yields message and hint; str() of SiteOccupiedError and NoAtomsError raises because their hint is not set.", "quantifier": "all error classes and all constructor arguments", "why_tests_cant": "Tests only check that the exception type is raised, never that it can be shown.", "anchors": ["lattpy/utils.py:ConfigurationError.__str__", "lattpy/utils.py:SiteOccupiedError", "lattpy/utils.py:NoAtomsError"]}
{"id": "C06", "title": "Atom equality is an equivalence compatible with hash", "statement": "As long as no parameter called 'name' is stored in an atom, == between atoms is reflexive, symmetric and transitive, agrees with comparing the names, and equal atoms have equal hashes; after atom['name']=... symmetry and hash compatibility are lost.", "quantifier": "all atoms reachable by any sequence of item/attribute assignments", "why_tests_cant": "Equivalence laws quantify over all triples of atoms and all histories.", "anchors": ["lattpy/atom.py:Atom.__eq__", "lattpy/atom.py:Atom.is_identical", "lattpy/atom.py:Atom.__hash__"]}
{"id": "C07", "title": "Atom parameters behave like a dictionary under any history", "statement": "After any sequence of item assignments, attribute assignments and deletions, reading a key returns the last value assigned and not deleted since, KeyError exactly when absent; attribute access agrees with item access for existing non-underscore keys; for other names it gives the real attributes name, weight and index and fails for anything else; len is the number of keys. dict() has every parameter, and the index and the name unless parameters of that name exist; by witness it lacks the weight.", "quantifier": "all finite operation histories on an atom", "why_tests_cant": "Depends on histories of unbounded length.", "anchors": ["lattpy/atom.py:Atom.__getitem__", "lattpy/atom.py:Atom.__setitem__", "lattpy/atom.py:Atom.__delitem__", "lattpy/atom.py:Atom.__getattribute__", "lattpy/atom.py:Atom.__setattr__"]}
{"id": "C08", "title": "Copying an atom is faithful", "statement": "copy() raises TypeError exactly when a parameter named 'name', 'weight', 'self' or 'copy' is stored. Otherwise it returns an atom equal to the original, with a new index, the same name and weight, and every stored parameter with its value; the only parameters the copy can have in addition are colour and radius with their defaults, when these were deleted from the original.", "quantifier": "all atoms reachable by any history", "why_tests_cant": "Failure needs a particular earlier assignment.", "anchors": ["lattpy/atom.py:Atom.copy", "lattpy/atom.py:Atom.__init__"]}
{"id": "C09", "title": "transform and itransform are mutually inverse", "statement": "For an invertible basis, itransform(transform(n)) = n and transform(itransform(x)) = x.", "quantifier": "all dimensions, all invertible bases, all coordinates (exact arithmetic)", "why_tests_cant": "Holds for every basis and point; tests use axis-aligned examples.", "anchors": ["lattpy/basis.py:LatticeBasis.transform", "lattpy/basis.py:LatticeBasis.itransform"]}
{"id": "C10", "title": "itranslate splits a point uniquely into cell and offset", "statement": "itranslate(x) returns an integer vector n and an offset r with x = translate(n, r), where the lattice coordinates of r lie in [0,1); no other integer vector has this property.", "quantifier": "all dimensions, all invertible bases, all points", "why_tests_cant": "Existence and uniqueness over all points.", "anchors": ["lattpy/basis.py:LatticeBasis.itranslate", "lattpy/basis.py:LatticeBasis.translate"]}
{"id": "C11", "title": "Cell index and super-index are a bijection", "statement": "For every shape with positive extents, get_cell_index and get_cell_superindex are inverse bijections between the in-range cell indices and 0..prod(shape)-1, and the super-index is strictly monotone in the lexicographic order of cells.", "quantifier": "all dimensions >= 1, all positive shapes, all in-range indices", "why_tests_cant": "Bijection over an unbounded family of shapes.", "anchors": ["lattpy/basis.py:LatticeBasis.get_cell_superindex", "lattpy/basis.py:LatticeBasis.get_cell_index"]}
{"id": "C12", "title": "Reciprocal vectors and lattices are dual to the basis", "statement": "In one, two and three dimensions reciprocal_vectors() returns vectors b with a_i . b_j = 2*pi if i = j and 0 otherwise, for either orientation of the basis, without raising when check=True and the tolerance is below 4*pi; from four dimensions on it raises. vectors3d embeds the vectors and completes them with unit vectors. reciprocal_lattice() has these dual vectors whatever its min_negative argument is (it is passed on as the tolerance), and taking it twice gives the original vectors.", "quantifier": "all invertible bases of dimension 1-3, all tolerances 0 <= tol < 4*pi", "why_tests_cant": "Both orientations of every basis; tests only inspect seven bases.", "anchors": ["lattpy/basis.py:LatticeBasis.reciprocal_vectors", "lattpy/basis.py:LatticeBasis.reciprocal_lattice", "lattpy/basis.py:LatticeBasis.vectors3d", "lattpy/spatial.py:cell_volume"]}
{"id": "C13", "title": "is_reciprocal", "statement": "is_reciprocal(vecs, tol) is true exactly if every diagonal product a_i . b_i is within tol of 2*pi; it therefore accepts every true set of reciprocal vectors, but also sets that are not reciprocal, since off-diagonal products are never checked (one of 1000 is accepted).", "quantifier": "all bases and vector sets", "why_tests_cant": "The false positives lie outside every sampled example.", "anchors": ["lattpy/basis.py:LatticeBasis.is_reciprocal"]}
{"id": "C14", "title": "Neighbour cell search", "statement": "get_neighbor_cells(d, comparison) returns exactly the integer cells with coefficients in [-(d+1), d+1] whose distance to the origin compares to the cut-off distance - the (d + number of different vector lengths)-th of the distances in this range - plus the origin exactly when asked for; the result has no duplicates and is closed under negation. For strongly skewed bases cells closer than returned ones are missing.", "quantifier": "all bases, all distance indices", "why_tests_cant": "Unbounded set of bases; missing cells only show for skewed ones.", "anchors": ["lattpy/basis.py:LatticeBasis.get_neighbor_cells"]}
{"id": "C15", "title": "Translations form a group action", "statement": "translate(0, r) = r, translate(m+n, r) = translate(m, translate(n, r)) and translate(n, r) - r does not depend on r; different integer vectors always lead to different points.", "quantifier": "all bases, all integer vectors, all points", "why_tests_cant": "Algebraic law over all inputs.", "anchors": ["lattpy/basis.py:LatticeBasis.translate", "lattpy/structure.py:LatticeStructure.get_position"]}
{"id": "C16", "title": "vindices enumerates the index grid exactly once", "statement": "vindices(limits) lists every integer vector v with lo <= v < hi exactly once, sorted along the requested axis, whenever each extent hi-lo fits the chosen dtype; for wider ranges (for example [-100, 100)) entries wrap around and wrong vectors are returned. A sort axis outside the dimensions, no limits at all and an upper limit below the lower one raise an exception.", "quantifier": "all dimensions, all limits, all sort axes", "why_tests_cant": "Grid sizes are unbounded and the wrap-around needs more than 127 cells in a symmetric range.", "anchors": ["lattpy/spatial.py:vindices", "lattpy/utils.py:min_dtype"]}
{"id": "C17", "title": "interweave alternates its inputs", "statement": "For m equally long arrays interweave returns an array whose entry k*m+i is entry k of array i. In general entry k comes from array k mod m at place k div m; arrays of length one are broadcast.", "quantifier": "all numbers of arrays, all lengths, all element types", "why_tests_cant": "Parametric in the data.", "anchors": ["lattpy/spatial.py:interweave"]}
{"id": "C18", "title": "Cell volume", "statement": "cell_volume is the absolute value of the determinant of the vectors (dimension 1-3): it is non-negative, zero exactly for linearly dependent vectors, and unchanged by swapping vectors, flipping signs, or adding a multiple of one vector to another.", "quantifier": "all vector sets of dimension 1-3", "why_tests_cant": "Continuous family of inputs.", "anchors": ["lattpy/spatial.py:cell_volume"]}
{"id": "C19", "title": "Nearest-neighbour query wrapper", "statement": "A query of the tree over its own distinct points returns for each point, in order of distance, other points within max_dist only, never the point itself; all rows have the same length, padded with index n and infinite distance, and no column is entirely padding.", "quantifier": "all point sets, all k, all max_dist", "why_tests_cant": "Any point cloud, any cut-off.", "anchors": ["lattpy/spatial.py:KDTree.query"]}
{"id": "C20", "title": "Rotations", "statement": "rx, ry, rz and rot are orthogonal with determinant one; rx, ry, rz compose additively; rotate2d and rotate3d preserve inner products, hence lengths and angles; rotate2d turns clockwise: (x, y) goes to (x cos t + y sin t, y cos t - x sin t); rotate3d turns a point clockwise about the third axis by thetaz, then about the second by thetay, then about the third by thetax; rot(t, 0, 0) equals rz(t) and in general not rx(t), because the z-rotation is used in place of the x-rotation.", "quantifier": "all angles", "why_tests_cant": "Trigonometric identities for all angles; the function is excluded from coverage.", "anchors": ["lattpy/spatial.py:rx", "lattpy/spatial.py:ry", "lattpy/spatial.py:rz", "lattpy/spatial.py:rot", "lattpy/spatial.py:rotate2d", "lattpy/spatial.py:rotate3d"]}
{"id": "C21", "title": "compute_vectors realises lengths and angles", "statement": "compute_vectors(a, b, alpha) returns vectors with the requested lengths and angle. compute_vectors(a, b, c, alpha, beta, gamma) with positive b, c and sin(gamma) != 0 returns vectors with the requested lengths and pairwise angles whenever the Gram determinant 1 + 2 cos cos cos - cos^2 - cos^2 - cos^2 is not negative; when it is negative the result is not a number. In one dimension the result is the length.", "quantifier": "all positive lengths and admissible angles", "why_tests_cant": "Continuous family of inputs.", "anchors": ["lattpy/spatial.py:compute_vectors"]}
{"id": "C22", "title": "cell_size", "statement": "cell_size along an axis equals max(0, max) - min(0, min) of the vector components if some component is not negative; it is never negative and never exceeds the extent of the parallelepiped spanned by the vectors; on an axis where all components are negative it is smaller than the length of the longest component.", "quantifier": "all vector sets", "why_tests_cant": "Sign patterns.", "anchors": ["lattpy/spatial.py:cell_size"]}
{"id": "C23", "title": "Box shapes", "statement": "Shape(size, pos, basis).contains(p, tol) holds exactly when each (basis) coordinate of p lies in [pos-tol, pos+size+tol]; every contained point (tol=0) lies within limits(), the limits are attained, and enlarging tol never removes points.", "quantifier": "all dimensions, sizes, positions, invertible bases, points", "why_tests_cant": "Continuous family of inputs.", "anchors": ["lattpy/shape.py:Shape.contains", "lattpy/shape.py:Shape.limits"]}
{"id": "C24", "title": "Circles and donuts", "statement": "Circle.contains holds exactly for points at distance at most radius+tol, Donut.contains exactly for distances in [inner-tol, outer+tol]; contained points lie within limits(); a donut with inner radius 0 is the circle.", "quantifier": "all dimensions, centres, radii, points", "why_tests_cant": "Continuous family of inputs.", "anchors": ["lattpy/shape.py:Circle", "lattpy/shape.py:Donut"]}
{"id": "C25", "title": "The connection matrix stays symmetric and in step with the atoms", "statement": "After any sequence of add_atom, add_connection, add_connections calls on a lattice that has not been analysed in between, the number of atoms, the number of positions and both dimensions of the connection matrix agree, the matrix is symmetric, and positions are pairwise different. Adding an atom after analyze() raises AttributeError and leaves one atom too many.", "quantifier": "all call histories with arbitrary arguments, including failing calls", "why_tests_cant": "Requires induction over histories.", "anchors": ["lattpy/structure.py:LatticeStructure.add_atom", "lattpy/structure.py:LatticeStructure.add_connection", "lattpy/structure.py:LatticeStructure.add_connections"]}
{"id": "C26", "title": "add_atom rejects bad input without side effects", "statement": "add_atom raises ValueError exactly for positions of the wrong dimension and SiteOccupiedError exactly for occupied positions, and then leaves the lattice unchanged; on success it appends one atom and resets every configured connection.", "quantifier": "all lattices and arguments", "why_tests_cant": "All reachable states and all positions.", "anchors": ["lattpy/structure.py:LatticeStructure.add_atom"]}
{"id": "C27", "title": "Atom references resolve as documented", "statement": "get_alpha(name) returns all indices of atoms with that name in increasing order, get_alpha(atom) the first index of an equal atom or ValueError, get_atom(index) and get_atom(name) agree with it; an unknown name yields no index and add_connection then silently changes nothing. add_connections(num) sets every entry of the matrix to num and changes nothing else, and raises AttributeError if there are no atoms. An Atom object that equals no atom of the unit cell makes add_connection raise ValueError, in either place, and nothing changes. On a lattice without atoms add_connection with two indices raises TypeError, and with a name changes nothing.", "quantifier": "all atom lists, names, indices", "why_tests_cant": "All name multiplicities.", "anchors": ["lattpy/structure.py:LatticeStructure.get_alpha", "lattpy/structure.py:LatticeStructure.get_atom", "lattpy/structure.py:LatticeStructure.add_connection"]}
{"id": "C28", "title": "analyze finds the configured distances", "statement": "After analyze() the neighbours of an atom are exactly the sites among the searched cells whose rounded distance is one of the first connections[a,b] distances occurring between the two sublattices; an atom is never its own neighbour; the relation is symmetric: (n, b) is a neighbour of a iff (-n, a) is a neighbour of b, at the same distance.", "quantifier": "all bases, atom bases and connection matrices", "why_tests_cant": "Unbounded set of lattices.", "anchors": ["lattpy/structure.py:LatticeStructure.analyze", "lattpy/structure.py:LatticeStructure._compute_base_neighbors"]}
{"id": "C29", "title": "Neighbours are translation covariant", "statement": "get_neighbors(nvec, alpha, i) is get_neighbors(0, alpha, i) shifted by nvec; all returned sites are at the same distance from (nvec, alpha); the distance is strictly increasing in i; an index beyond the number of distances raises IndexError.", "quantifier": "all analysed lattices, cells, atoms and distance indices", "why_tests_cant": "All cells.", "anchors": ["lattpy/structure.py:LatticeStructure.get_neighbors", "lattpy/structure.py:LatticeStructure.get_neighbor_positions"]}
{"id": "C30", "title": "check_points", "statement": "check_points(points, box) marks exactly the points inside the box enlarged by the tolerance at the lower side, raising ValueError for a wrong dimension.", "quantifier": "all boxes, points and tolerances", "why_tests_cant": "Continuous family of inputs.", "anchors": ["lattpy/structure.py:LatticeStructure.check_points"]}
{"id": "C31", "title": "Indices and positions of a build are aligned", "statement": "build_indices returns indices and positions of equal length, and position k is the position of index k, ordered by cell and then by atom; filtering by shape or callback keeps the alignment.", "quantifier": "all bases, atom bases, translation vectors, shapes and callbacks", "why_tests_cant": "Parametric in the data.", "anchors": ["lattpy/structure.py:LatticeStructure.build_indices", "lattpy/spatial.py:interweave"]}
{"id": "C32", "title": "Build covers the requested box", "statement": "If the box is at the origin and every coordinate with respect to the lattice vectors is non-decreasing along some axis (or no coordinate decreases along any axis, for any position), and the index ranges fit the smallest integer type, every lattice site whose position lies in the box and whose atom has cell coordinates in [0, 2) has its cell among the generated translation vectors, which contain no duplicates. Sites inside the box can be missing for other positions on skewed bases, for lattice vectors pointing backwards, and for wide boxes, where the int8 index range wraps around.", "quantifier": "all dimensions, bases, sizes, sites", "why_tests_cant": "Coverage over all sites of an infinite lattice.", "anchors": ["lattpy/structure.py:LatticeStructure.build_translation_vectors"]}
{"id": "C33", "title": "Built sites are exactly the lattice sites inside the shape, without duplicates", "statement": "build_indices returns no site twice; every returned site lies in the box (up to the tolerance at the lower side) or in the shape (up to its tolerance); under the conditions of C32 every lattice site inside the box or shape is returned.", "quantifier": "all bases, atom bases, box sizes", "why_tests_cant": "All sites, all lattices.", "anchors": ["lattpy/structure.py:LatticeStructure.build_indices", "lattpy/lattice.py:Lattice.build"]}
{"id": "C34", "title": "Computed neighbours are exactly the connected pairs", "statement": "For an analysed lattice whose sites are at least 6e-6 apart, and built sites of which at most k lie within max_dist of each one, compute_neighbors lists for each site exactly the other sites whose rounded distance is configured for the pair of atom types, each once, in order of distance, padded with the number of sites and infinite distances; the relation is symmetric and irreflexive. When more than k sites are in range connected neighbours are dropped.", "quantifier": "all built site sets, all configured connections", "why_tests_cant": "All site sets.", "anchors": ["lattpy/structure.py:LatticeStructure.compute_neighbors", "lattpy/structure.py:LatticeStructure._filter_neighbors"]}
{"id": "C35", "title": "Neighbour filtering keeps a padding entry", "statement": "The table returned by _filter_neighbors contains a padding entry exactly when no entry was missing or two sites have different numbers of neighbours; with a padding entry the lattice data holds exactly the listed neighbours. When all sites have equally many neighbours after removing unconnected pairs there is none, and every neighbour at the largest distance disappears from the lattice data.", "quantifier": "all query results and connection configurations", "why_tests_cant": "Needs a special coincidence of neighbour counts.", "anchors": ["lattpy/structure.py:LatticeStructure._filter_neighbors", "lattpy/data.py:LatticeData.set"]}
{"id": "C36", "title": "Numbers and distances of neighbours", "statement": "num_neighbors[alpha] is the number of different sites returned by get_neighbors over all distance indices as long as it is at most 127; counts from 128 to 255 are stored as the count minus 256 (by witness a chain with 64 distances reports -128 neighbours). The row of an atom in the distances table lists its neighbour distances in increasing order, then zeros, and column i is the distance of the neighbours get_neighbors(alpha, i); the entries of the connection distances are increasing.", "quantifier": "all analysed lattices", "why_tests_cant": "Overflow needs more than 127 neighbours.", "anchors": ["lattpy/structure.py:LatticeStructure.analyze", "lattpy/structure.py:LatticeStructure.get_neighbors"]}
{"id": "C37", "title": "Dictionary round trip", "statement": "For a lattice whose atoms, positions and connection matrix are in step and a deterministic matrix inverse, fromdict(todict(l)) of an analysed lattice yields a structure with the same vectors, atoms, positions and connections and the same analysis result. For any such lattice it yields the lattice that analyze() would yield, also when l was not analysed, and raises what analyze() raises. For any dictionary, the first position with a wrong number of components makes fromdict raise ValueError, and the first one that repeats an earlier position makes it raise SiteOccupiedError.", "quantifier": "all analysed lattices", "why_tests_cant": "All lattices.", "anchors": ["lattpy/structure.py:LatticeStructure.todict", "lattpy/structure.py:LatticeStructure.fromdict"]}
{"id": "C38", "title": "Lattice equality is an equivalence compatible with hash", "statement": "On lattices with at least one atom == is reflexive, symmetric and transitive; it holds exactly for equal hashes; lattices with the same vectors, atoms, positions and connections are equal, and equal lattices have the same printed form unless md5 collides. If no entry prints as an empty text or a text with a semicolon or line break, two lattices have the same printed form (and are equal, unless md5 collides) exactly if they have the same number of vectors, atoms, positions and rows of connections and these print the same one by one. For a lattice without atoms hashing and comparing raise.", "quantifier": "all lattices", "why_tests_cant": "Equivalence laws over all triples.", "anchors": ["lattpy/structure.py:LatticeStructure.__eq__", "lattpy/structure.py:LatticeStructure.__hash__", "lattpy/structure.py:1375-1379"]}
{"id": "C39", "title": "Stored neighbours are the finite-distance entries", "statement": "After LatticeData.set with rectangular tables that contain an infinite distance and at most 256 distinct distances, get_neighbors(i) returns exactly the neighbours with finite distance, in table order, every distance is recovered from its distance index, distance values are increasing, and no neighbour is periodic. Without an infinite entry the neighbours at the largest distance are lost.", "quantifier": "all neighbour tables with at least one infinite entry and at most 256 distinct distances", "why_tests_cant": "All tables.", "anchors": ["lattpy/data.py:LatticeData.set", "lattpy/data.py:LatticeData.get_neighbors"]}
{"id": "C40", "title": "Neighbours partition by distance index", "statement": "get_neighbors(site) lists the stored neighbours in order; with unique=True exactly those with larger index; with a distance index below the padding index exactly those at that distance; periodic=True/False split them in two. iter_neighbors yields each non-empty distance class once in increasing order, and the classes together are all neighbours. Asking for the distance index of the padding returns the number of sites as a neighbour.", "quantifier": "all data states and sites", "why_tests_cant": "All states.", "anchors": ["lattpy/data.py:LatticeData.neighbor_mask", "lattpy/data.py:LatticeData.iter_neighbors"]}
{"id": "C41", "title": "Removing sites yields the induced sub-lattice", "statement": "After remove(sites) with distinct valid sites, the remaining sites keep their index and position in order, their neighbours are the old ones that remain, relabelled, at the same distance, and nothing refers to a removed site. A site out of range raises. A site given twice shifts the labels twice and yields wrong neighbours.", "quantifier": "all well-formed data, all duplicate-free site lists", "why_tests_cant": "All data and all subsets.", "anchors": ["lattpy/data.py:LatticeData.remove"]}
{"id": "C42", "title": "Sorting sites is an isomorphism", "statement": "After sort with a permutation (or along an axis) the data is the old data relabelled: new site k is old site indices[k], and neighbour relations, distances and periodic data are carried over exactly; the sort along an axis orders that index component.", "quantifier": "all well-formed data, all permutations, axes, directions", "why_tests_cant": "All permutations.", "anchors": ["lattpy/data.py:LatticeData.sort"]}
{"id": "C43", "title": "Sorting neighbours only permutes rows", "statement": "sort_neighbors keeps for each site the multiset of (neighbour, distance, periodic data) and orders it by distance, padding last.", "quantifier": "all well-formed data and all sorting algorithms (stable or not)", "why_tests_cant": "All tables and tie orders.", "anchors": ["lattpy/data.py:LatticeData.sort_neighbors"]}
{"id": "C44", "title": "Adding neighbours", "statement": "add_neighbors(site, j, d) on a packed row with a free slot and a distance that is already stored appends exactly this neighbour and changes no other row; on a full row the neighbour is dropped silently. For any distance, stored or not, the neighbour is recorded with the least stored distance that is not below it, and is lost if there is none; all other rows keep their links.", "quantifier": "all packed data states", "why_tests_cant": "Needs full rows.", "anchors": ["lattpy/data.py:LatticeData.add_neighbors"]}
{"id": "C45", "title": "Appending data is a disjoint union", "statement": "For well-formed data of equal dimension with at least one site each, a padding entry that survives, and together at most 256 distances, append(other) yields the sites of both in order; the neighbours of the first part and, shifted by its number of sites, those of the second part are kept (ordered by distance), there is no connection between the parts, and nothing is periodic. Outside these conditions, by witness: periodic neighbours of the first part survive as ordinary ones; two full tables lose all neighbours; the argument is changed in place; copy() drops periodic neighbours. In general the argument keeps sites, distances and periodic data after the call; its neighbours are shifted by the number of sites of the first object if the integer types agree and are kept otherwise.", "quantifier": "all pairs of well-formed data", "why_tests_cant": "All pairs.", "anchors": ["lattpy/data.py:LatticeData.append"]}
{"id": "C46", "title": "Periodic neighbours can be added and removed", "statement": "On well-formed data whose rows hold the regular neighbours before the periodic ones, and for entries that fit the free slots, set_periodic leaves the regular neighbours as they are, makes exactly the given ones the periodic neighbours, and remove_periodic afterwards restores the regular ones. remove_periodic on any well-formed data leaves the regular neighbours. Otherwise, by witness: one periodic neighbour of a full row is dropped, two of them raise; if rows are not in this order regular neighbours are overwritten.", "quantifier": "all packed data, all periodic neighbour assignments that fit", "why_tests_cant": "All states.", "anchors": ["lattpy/data.py:LatticeData.set_periodic", "lattpy/data.py:LatticeData.remove_periodic"]}
{"id": "C47", "title": "Site selection", "statement": "find_sites(mins, maxs) returns, in increasing order, exactly the sites inside the closed box with missing bounds unbounded; invert=True returns exactly the complement.", "quantifier": "all data and bounds", "why_tests_cant": "All bounds.", "anchors": ["lattpy/data.py:LatticeData.site_mask", "lattpy/data.py:LatticeData.find_sites", "lattpy/data.py:LatticeData.find_outer_sites"]}
{"id": "C48", "title": "The data map lists sites and neighbour pairs exactly", "statement": "For well-formed data with at most 128 atoms and no cached map, map() contains each site once as diagonal element labelled by its atom and each ordered neighbour pair once labelled by its distance index, with rows non-decreasing; the onsite and hopping masks are complementary, and restricted to an atom or a distance index select exactly those elements. With atom index 128 a diagonal element is taken for a hopping.", "quantifier": "all well-formed data, any argsort tie order", "why_tests_cant": "All data and tie orders.", "anchors": ["lattpy/data.py:DataMap", "lattpy/data.py:LatticeData.map"]}
{"id": "C49", "title": "CSR index arrays describe the same matrix", "statement": "For every data array, the matrix described by (data, indices, indptr) from indices_indptr() equals the matrix assembled from (data, rows, cols), as used by build_csr and build_bsr.", "quantifier": "all data maps, all data arrays, any argsort tie order", "why_tests_cant": "All sizes.", "anchors": ["lattpy/data.py:DataMap.indices_indptr", "lattpy/data.py:DataMap.build_csr", "lattpy/data.py:DataMap.build_bsr"]}
{"id": "C50", "title": "The map reflects the current neighbours", "statement": "Expectation: map() describes the current neighbours. It holds right after set/reset, but after map() has been called once, set_periodic, remove_periodic, remove, sort, add_neighbors leave the old map in place.", "quantifier": "all histories of operations on the data", "why_tests_cant": "History dependent.", "anchors": ["lattpy/data.py:LatticeData.map", "lattpy/data.py:LatticeData.set_periodic", "lattpy/data.py:LatticeData.remove"]}
{"id": "C51", "title": "Data invariant over histories", "statement": "After any sequence of set, sort, sort_neighbors, add_neighbors, set_periodic, remove_periodic, append and map with admissible arguments, all tables have the same shape, every valid slot refers to an existing site, and distance indices point into the distance values; so get_neighbors succeeds for every site (unless asked for the padding distance) and returns existing sites only.", "quantifier": "all finite operation histories", "why_tests_cant": "Induction over histories.", "anchors": ["lattpy/data.py:LatticeData"]}
{"id": "C52", "title": "remove leaves stale periodic tables", "statement": "After remove(sites) of at least one site the periodic mask still has the old rows, so that a query with periodic=... uses the mask of another site, remove_periodic, set_periodic and append raise; without periodic=... results are right.", "quantifier": "all data, all non-empty removals", "why_tests_cant": "Only visible for a later query.", "anchors": ["lattpy/data.py:LatticeData.remove", "lattpy/data.py:LatticeData.neighbor_mask"]}
{"id": "C53", "title": "Failed builds", "statement": "build first drops the old sites. It raises NoConnectionsError iff connections are registered but all zero, then NotAnalyzedError if the structure is not analysed (also when no connections exist at all), then ValueError for a size or position of the wrong length; after any such failure the lattice has no sites while shape, position, periodic axes and the primitive flag keep their old values. After a successful build num_sites is the number of positions, every position is the one of its index, and without min_neighbors the sites are exactly those of build_indices. set_periodic after a failed build changes nothing: IndexError if the lattice had been built before, NotBuiltError otherwise.", "quantifier": "all lattice states and arguments", "why_tests_cant": "State dependent.", "anchors": ["lattpy/lattice.py:Lattice.build"]}
{"id": "C54", "title": "Neighbour pairs and adjacency matrix", "statement": "neighbor_pairs() lists exactly the pairs (i, j) with j a neighbour of i together with the distance index, in order; with unique=True exactly those with i<j, each once if rows contain no neighbour twice and the relation is symmetric. If in addition there are at most 127 distances and some pair, adjacency_matrix() has entry distidx+1 at exactly these places, 0 elsewhere, is symmetric, and its shape is one more than the largest row and column with a neighbour - smaller than (N, N) when the last sites are isolated. Without pairs it raises ValueError; distance index 127 becomes -128.", "quantifier": "all well-formed data", "why_tests_cant": "All data.", "anchors": ["lattpy/lattice.py:Lattice.neighbor_pairs", "lattpy/lattice.py:Lattice.adjacency_matrix"]}
{"id": "C55", "title": "Super-index look-ups invert the site tables", "statement": "superindex_from_index(ind) is the first site with this index and None iff there is none; superindex_from_pos(pos) the first site within the tolerance in every coordinate and None iff there is none; hence they invert the tables for distinct indices, respectively positions further apart than the tolerance.", "quantifier": "all lattices built without duplicates", "why_tests_cant": "All lattices.", "anchors": ["lattpy/lattice.py:Lattice.superindex_from_pos", "lattpy/lattice.py:Lattice.superindex_from_index"]}
{"id": "C56", "title": "check_neighbors", "statement": "check_neighbors(i, j) returns the smallest distance index below the number of configured distances at which j is listed for i, and None iff there is none; if the stored distances are not more than the configured ones this is every neighbour; otherwise real neighbours are reported as None.", "quantifier": "all lattices and site pairs", "why_tests_cant": "Needs several sublattices with different distances.", "anchors": ["lattpy/lattice.py:Lattice.check_neighbors", "lattpy/structure.py:LatticeStructure.num_distances"]}
{"id": "C57", "title": "Minimum distances", "statement": "minimum_distances(i)[j] is the minimum of the direct distance and the distances to j of i moved by the listed periodic translations and their negatives; it is symmetric and zero for i=j. For one periodic axis, and for both axes of a two-dimensional lattice (primitive or with vectors along the axes), it is at most the distance over every image by -1, 0, 1 extents; in three dimensions images are missing and the result is too large, and after a rebuild without periodic axes the old axes are still used.", "quantifier": "all lattices, sites and periodic axes", "why_tests_cant": "All lattices.", "anchors": ["lattpy/lattice.py:Lattice.minimum_distances", "lattpy/lattice.py:Lattice.periodic_translation_vectors"]}
{"id": "C58", "title": "Periodic neighbours are neighbours across a lattice translation", "statement": "For an analysed structure, sites given by indices and positions, and periodic axes: (0) the computation succeeds on well-formed data; (1) every site listed as periodic neighbour of i is not a regular neighbour of i, occurs once, and lies at a distance of the connections of the two atoms from i translated by a periodic translation vector or its negative; (2) every site for which this holds and which is not a regular neighbour is listed, provided no more sites are in range than neighbours are asked for; (3) if no translation brings regular neighbours to an allowed distance, the stored distance, vector and axes are those of the listed site and, for two different sites, the other one stores the same distance and axes with the opposite vector. Otherwise distances and vectors are paired with the wrong sites (2x4 square lattice), and a site that is its own neighbour keeps one of its two images.", "quantifier": "all lattices, periodic axes", "why_tests_cant": "All lattices.", "anchors": ["lattpy/lattice.py:Lattice._compute_pneighbors", "lattpy/lattice.py:Lattice.set_periodic"]}
{"id": "C59", "title": "Repeating a lattice", "statement": "For a primitive lattice or one with orthogonal vectors along the axes: repeat(num, side=+1) yields num+1 copies translated by multiples of the extent along the axis; no index occurs twice, the extent is multiplied, and without sorting copy c of site j is site c*N+j. With side=-1 every copy is translated by minus the extent once, so for num>=2 there are distinct sites with equal index and position; for num=1 there are none. Repeating periodic lattices goes wrong, by witness: a tube repeated twice along its open axis has neighbours that do not exist in its second copy, and a ring that is repeated loses all neighbours.", "quantifier": "all lattices and repetition numbers", "why_tests_cant": "Induction over num.", "anchors": ["lattpy/lattice.py:Lattice.repeat", "lattpy/lattice.py:Lattice._append"]}
{"id": "C60", "title": "Dangling filter", "statement": "_filter_dangling removes exactly the sites with fewer than min_neighbors neighbours and keeps the induced sub-lattice; remaining sites may again have too few neighbours; ValueError exactly if all sites would go.", "quantifier": "all neighbour tables", "why_tests_cant": "All tables.", "anchors": ["lattpy/lattice.py:_filter_dangling"]}
{"id": "C61", "title": "Limits, centre and relative positions", "statement": "Every site lies within limits(), the limits are attained, relative_position(f) with f in [0,1] lies within them, centre is the mid-point, and centre_of_gravity lies within the limits if every mass parameter, 1 where there is none, is positive. Without sites, and only then, there are neither limits nor relative positions.", "quantifier": "all non-empty lattices", "why_tests_cant": "All lattices.", "anchors": ["lattpy/lattice.py:Lattice.limits", "lattpy/lattice.py:Lattice.relative_position", "lattpy/lattice.py:Lattice.center", "lattpy/lattice.py:Lattice.center_of_gravity"]}
{"id": "C62", "title": "Primitive builds depend on the lattice constant", "statement": "For a lattice with one atom whose vectors point along the axes with lengths a_i, build(s, primitive=True) with s_i >= 0 and 1/10 <= s_i*a_i < 2^62 yields exactly the cells n with 0 <= n_i <= min(floor(s_i + 1/1000), floor(s_i*a_i - 1/10)), each once; their number is the product of these bounds plus one. So finite_hypercubic(s, a) depends on a: for integer sizes it has s_i sites per axis for a = 1, s_i + 1 for every a >= 11/10, fewer for small a (s=4 gives 4, 5, 2 sites for a = 1, 2, 1/2). The extent of a shape object (circle, ring, hull, box) is multiplied by the lattice constant as well, although it is a length: with limits [lo_i, hi_i], hi_i - lo_i >= 1/10, a primitive build yields exactly the sites in the shape (tolerance 1/1000) whose cell is at most floor(lo_i/a_i + (hi_i - lo_i) - 1/10) along every axis (at most 0 if that is negative and d > 1) and not below the cell of lo_i (or of the origin, if lower and d > 1) minus 1, provided the searched index ranges do not wrap around in their integer type. No site in the shape is lost for an atom at the origin if (hi_i - lo_i)*(a_i - 1) >= a_i/10. In general sites are lost, by witness: finite_hypercubic(Circle((0,), 1)), which is primitive by default, lacks the site 1; Circle((0, 0), 2) with a = 1/2 gives 17 of 49 sites.", "quantifier": "all dimensions, sizes and lattice constants in the stated range; all well-formed shape objects", "why_tests_cant": "Tests only use a=1; the count is a two-sided bound over rational sizes and constants in any dimension.", "anchors": ["lattpy/__init__.py:finite_hypercubic", "lattpy/lattice.py:Lattice.build", "lattpy/structure.py:LatticeStructure.build_translation_vectors"]}
{"id": "C63", "title": "Dispersion paths", "statement": "If every point has the dimension of the path, build(n) returns (P-1)*n points; for n>=2 section i runs linearly from point i to point i+1; tick i marks point i for every i but the last, whose tick is one past the end of the path; labels and points of any path made with add/cycle/build have equal length; add cuts points to the dimension, cycle appends the first point and label again and raises on an empty path. A point of a single number is spread over all coordinates; build succeeds iff of any two consecutive points one has the full dimension and the other the full dimension or a single number. The preset paths visit X-Gamma-X (chain), Gamma-X-M-Gamma (square) and Gamma-X-M-Gamma-R (cubic). Before build all ticks are 0. add_points adds as many points in order as there are names (all if no names are given), and points without name are called by the number of points before them.", "quantifier": "all point lists, all section sizes", "why_tests_cant": "All lists.", "anchors": ["lattpy/disptools.py:DispersionPath"]}
{"id": "C64", "title": "frmt_time", "statement": "frmt_time picks the unit by magnitude; the minutes and seconds shown are quotient and nearest integer (or tenth) of the remainder of the duration; in the short format durations from 3600 to 3660 seconds are shown as 60 minutes, and fields can show 60 seconds because of rounding.", "quantifier": "all durations", "why_tests_cant": "Boundary values.", "anchors": ["lattpy/utils.py:frmt_time"]}
{"id": "C65", "title": "Connection colours", "statement": "connection_color_array raises iff some given pair is no index pair (Python indices, negative ones included); otherwise it returns a symmetric num_base x num_base table in which each pair has the last colour given for it in either order, or the default.", "quantifier": "all colour lists", "why_tests_cant": "All lists.", "anchors": ["lattpy/plotting.py:connection_color_array"]}
{"id": "C66", "title": "Fourier weights", "statement": "fourier_weights at k=0 is the number of neighbours, is conjugated under k -> -k, is real when the neighbour vectors are symmetric under inversion, and for one-atom lattices is unchanged by adding a reciprocal lattice vector to k.", "quantifier": "all neighbour vector sets and k", "why_tests_cant": "Continuous family.", "anchors": ["lattpy/structure.py:LatticeStructure.fourier_weights"]}
{"id": "C67", "title": "Positions, neighbour positions and neighbour vectors", "statement": "get_position(n, alpha) is the lattice vector n plus the position of the atom, and raises for atoms that do not exist; get_neighbor_positions are the positions of the neighbours of get_neighbors; get_neighbor_vectors(alpha, i) are the differences between neighbour positions and the atom position, all of the same length; with include_zero=True the extra row is minus the atom position instead of zero when the atom is not at the origin. estimate_index(x) rounds the lattice coordinates of x to the nearest integers, halves to even ones; it returns n for every position less than half a cell away from the lattice point n along each vector, in particular for the sites of cell n whose atom lies less than half a cell from the origin. For other atoms it names another cell (by witness: an atom at 3/4).", "quantifier": "all analysed lattices", "why_tests_cant": "All lattices.", "anchors": ["lattpy/structure.py:LatticeStructure.get_position", "lattpy/structure.py:LatticeStructure.get_neighbor_positions", "lattpy/structure.py:LatticeStructure.get_neighbor_vectors"]}
{"id": "C68", "title": "Sites by atom", "statement": "get_positions(alpha) returns in order exactly the positions of sites of that atom, and over all atoms these partition the sites.", "quantifier": "all data", "why_tests_cant": "All data.", "anchors": ["lattpy/data.py:LatticeData.get_positions"]}
{"id": "C69", "title": "Axis of a dispersion plot", "statement": "_scale_xaxis for P sections of n samples returns P*n axis positions and P+1 ticks; sample j of section i is j*scale_i after tick i, so tick i is the first position of section i and tick i+1 its last one. For a number of samples that is no multiple of P there are more positions than samples.", "quantifier": "all numbers of sections and samples, all scales", "why_tests_cant": "Induction over the sections.", "anchors": ["lattpy/disptools.py:_scale_xaxis"]}
{"id": "C70", "title": "Search range of the neighbour computation", "statement": "After a successful analyze the search radius used by compute_neighbors is the greatest allowed distance plus a tenth of the smallest distance occurring between any two atoms of the unit cell, it is defined whenever every pair of atoms has as many different distances as the greatest number of connections asks for, and the number of neighbours asked of the tree is one more than the number of sites (over all pairs of atoms) at the first max distances, max being the greatest number of connections of any pair.", "quantifier": "all lattices with consistent state, all connection tables, all correct KD-trees", "why_tests_cant": "Exact characterisation of the two query parameters for every lattice and connection table.", "anchors": ["lattpy/structure.py:compute_neighbors", "lattpy/structure.py:analyze"]}
{"id": "C71", "title": "A build connects exactly the configured sites", "statement": "A build on an analysed lattice whose unit cell atoms are not congruent modulo lattice vectors succeeds and stores exactly the selected sites; for every site the stored neighbours are, each once, exactly the other sites whose rounded distance is among the first connections(alpha, beta) distances of the two kinds of atoms; every row lists its neighbours first and then padding that holds the number of sites, and no neighbour is periodic. Guards: not more sites within the search radius than asked of the tree, no distance below 6e-6, at most 255 different allowed distances, and either two sites with different numbers of neighbours or all sites in range being neighbours (otherwise there is no padding entry and set() drops the table, C35).", "quantifier": "all lattices, dimensions, connection tables, shapes, positions, callbacks, KD-trees and argsorts meeting their specifications", "why_tests_cant": "End-to-end statement from lattice definition to stored neighbours over all of these.", "anchors": ["lattpy/lattice.py:build", "lattpy/structure.py:compute_neighbors", "lattpy/data.py:set"]}
{"id": "C72", "title": "Hypercubic lattices are grid graphs", "statement": "For a hypercubic lattice with one atom, connections to the nearest neighbours and a lattice constant a rounding to at least 6e-6, every build that selects at least one site succeeds (no further guard), and two built sites are neighbours exactly if their cells differ by one in exactly one component, at the rounded distance a. finite_hypercubic with a size s >= 0 and a > 1/1000 never raises for neighbors=1; its sites are exactly the cells 0..floor(s_i/a) along every axis (for primitive builds the counts of C62), their number is the product, and the neighbours are those of the grid graph.", "quantifier": "all dimensions, sizes, lattice constants, shapes and callbacks", "why_tests_cant": "Sizes, dimensions and selections are unbounded; the proof shows the search range of C70 suffices in every dimension.", "anchors": ["lattpy/__init__.py:finite_hypercubic", "lattpy/lattice.py:build", "lattpy/structure.py:compute_neighbors", "lattpy/basis.py:hypercubic"]}
{"id": "C73", "title": "Ready-made lattices are ready", "statement": "Creating a lattice from a basis and a list of atoms (as simple_chain, alternating_chain, simple_square, simple_rectangular, simple_cubic and nacl_structure do) succeeds exactly if the positions are pairwise different and the number of neighbour distances is not zero (otherwise SiteOccupiedError, NoConnectionsError); the result is analysed and has these atoms, positions and the given number of distances between all pairs of atoms. For non-zero lattice constants the six lattices have the documented lattice vectors, volume of the unit cell (|a|, |a|, a^2, |a1||a2|, |a|^3, |a|^3/4) and atom positions (alternating chain: x0*a and (x0+1/2)*a; rock salt: the origin and (a/2, a/2, a/2)). finite_hypercubic with zero neighbour distances raises NoConnectionsError; otherwise it gives what build gives for the lattice with one atom at the origin, including its errors.", "quantifier": "all valid bases, all non-empty lists of atoms with positions of the right length, all numbers of neighbours; all non-zero lattice constants and offsets", "why_tests_cant": "all lattice constants, offsets, atoms and neighbour numbers are covered, and the failure cases are exactly delimited", "anchors": ["lattpy/__init__.py:77-107", "lattpy/__init__.py:110-146", "lattpy/__init__.py:154-184", "lattpy/__init__.py:187-219", "lattpy/__init__.py:323-353", "lattpy/__init__.py:356-390", "lattpy/basis.py:101-114", "lattpy/basis.py:136-157"]}
{"id": "C74", "title": "Points of the fcc and bcc lattices", "statement": "The lattice points of LatticeBasis.fcc(a) are exactly the points (a/2)(i, j, k) with integers i + j + k even; every point has exactly twelve nearest ones, at squared distance a^2/2. The lattice points of LatticeBasis.bcc(a) are exactly the points (a/2)(i, j, k) with i, j, k all even or all odd; every point has exactly eight nearest ones, at squared distance 3a^2/4.", "quantifier": "all non-zero lattice constants, all points, all integer coordinates", "why_tests_cant": "infinitely many lattice points; a wrong sign in one vector can leave many of the tested points unchanged", "anchors": ["lattpy/basis.py:141-151", "lattpy/basis.py:266-267"]}
{"id": "C75", "title": "Oblique, hexagonal and honeycomb lattices", "statement": "The vectors of LatticeBasis.oblique have lengths |a1|, |a2|, scalar product a1*a2*cos(alpha) and span the signed area a1*a2*sin(alpha). The vectors of hexagonal have length sqrt(3)|a| and enclose 60 degrees; hexagonal3d adds an orthogonal one of length |a*az|/2. So the documented 'length of the basis vector' a is wrong (refuted by witness, also for az). For a > 0 every site of the hexagonal lattice has exactly six nearest sites, at distance sqrt(3)a, with the listed cells. In honeycomb and graphene every atom has exactly three atoms of the other kind at distance a, in the listed cells, and all others are at least twice as far away.", "quantifier": "all angles and lattice constants (real numbers), all integer cells", "why_tests_cant": "real lattice constants and infinitely many cells", "anchors": ["lattpy/basis.py:116-134", "lattpy/basis.py:324-325", "lattpy/__init__.py:281-285", "lattpy/__init__.py:311-315"]}
{"id": "C77", "title": "Links across the seam of appended lattices", "statement": "Appending lattice `other` to lattice `l` along an axis keeps every link of both parts and adds links across the seam. Site i of l and site j of other (moved by the extent of l, or by minus the extent of other on the left side) become neighbours, in both directions, exactly if their distance is at most the query radius of the unit cell and some known distance of either part is at least their distance; the recorded distance is the smallest such one. No link is periodic and the result is well formed. This needs room in the tables: the padded width is large enough for the new links of each site. Without this, or with other data, links go wrong (by witness): a lattice constant of 1/3 loses the link because the recorded distance is rounded down; full rows lose links in one direction or both; the connection matrix is ignored at the seam and the recorded distance is wrong and asymmetric. append, repeat and extend keep the structure, the recorded periodic axes and the choice of primitive vectors; so a ring to which a chain is appended has no periodic neighbour but still reports its axis as periodic (witness).", "quantifier": "all dimensions, lattices (primitive or with axis-aligned vectors), axes, sides, built data with up to 256 distances in total and room in the rows, any correct ball query and any argsort", "why_tests_cant": "unbounded sizes, dimensions and positions; every correct spatial tree and every stable or unstable sort", "anchors": ["lattpy/lattice.py:703-726", "lattpy/lattice.py:797-838", "lattpy/lattice.py:897-903", "lattpy/data.py:507-517"]}
{"id": "C76", "title": "Number of cells, volume, shape and position", "statement": "num_cells is the number of distinct cells that hold a site, and volume is that number times the absolute determinant of the lattice vectors (1 to 3 dimensions). If every site occurs once and there are m atoms per cell, the number of sites lies between num_cells and m*num_cells, and equals m*num_cells exactly if every occupied cell is complete. After every successful build, and after set_periodic (whatever its outcome), append, repeat and extend, `pos` is the lower corner and `shape` the edge lengths of the smallest box around all sites.", "quantifier": "all lattices, dimensions, shapes, callbacks, trees and argsorts; all sequences of these operations", "why_tests_cant": "unbounded numbers of cells and sites and arbitrary sequences of operations", "anchors": ["lattpy/lattice.py:145-167", "lattpy/lattice.py:391-394", "lattpy/lattice.py:475", "lattpy/lattice.py:838"]}
{"id": "C78", "title": "Appending and repeating pieces of a hypercubic lattice gives the grid of the joined cells", "statement": "A built lattice with one atom and nearest neighbours on a hypercubic basis is a piece of the grid: every selected cell occurs once, at its position, and is linked exactly to those of its 2d neighbouring cells that were selected, all at the rounded distance za of the lattice constant a. Appending another such piece along an axis, on either side, succeeds if the moved cells are disjoint and no cell of the result has more neighbours than the wider of the two tables has columns; if a is not larger than za (no rounding down) the result is again the piece of the joined cells, with all links across the seam and no others; if za is below a there are no links across the seam at all. In particular two boxes of cells that differ only along the axis of which at least one is three cells long become one box (starting at the old origin for side > 0, or the length of the appended box before it otherwise), and repeating a box with at least three cells k times to the right gives the box with k+1 times as many cells. finite_hypercubic by size is the box with floor(size/a)+1 cells along every axis.", "quantifier": "all dimensions, lattice constants above 1e-3, atom positions, cell sets, axes and sides; any number of repetitions; all tree queries, ball queries and argsorts that meet their specification", "why_tests_cant": "that the seam of an appended lattice has exactly the links of one larger lattice, in every dimension and after any number of repetitions, is a statement about an unbounded family of lattices", "anchors": ["lattpy/lattice.py:796-838", "lattpy/lattice.py:897-903", "lattpy/lattice.py:988-996", "lattpy/data.py:519-566", "lattpy/__init__.py:442-452"]}
{"id": "C79", "title": "extend appends the section it builds; boxes of a hypercubic lattice grow by whole layers", "statement": "extend raises without data, extents or analysis and for an axis the lattice does not have. Otherwise the new section consists of the sites that build_indices selects from the origin for the extents of the lattice with the given size along the axis, connected like the sites of a built lattice, and extend gives exactly the result of append with a lattice of these sites. For a box of cells at the origin of a hypercubic lattice (one atom at the lattice points, nearest neighbours, up-to-date extents, not primitive, lattice constant a above 1e-3 and not rounded down), extend by size along an axis adds floor(size/a)+1 layers on the given side: the result is the box with all links and no others, and its extents are up to date, so that any sequence of extensions to the right gives the box with the sum of the layers added along each axis (e.g. extents [5,2], [8,2], [8,5] in the documentation); lattices of finite_hypercubic are such boxes. By witness this fails for lattices built away from the origin (new rows at the wrong place), for an atom away from the lattice point (missing rows), for primitive skew lattices (missing cells), when extending right after left (a gap), and when extending left twice (sites that occur twice).", "quantifier": "all structures, dimensions, sizes, axes and sides; any number of extensions to the right; all tree queries, ball queries and argsorts that meet their specification", "why_tests_cant": "the number of added layers and the links between them are claimed for all dimensions, sizes and sequences of extensions; tests extend two or three fixed lattices", "anchors": ["lattpy/lattice.py:942-950", "lattpy/lattice.py:796-838"]}
{"id": "C80", "title": "Identity of finite lattices: what ==, hash and the dictionary of a built lattice depend on", "statement": "A Lattice that is not built or has no atoms can neither be hashed nor compared (TypeError). Built lattices are equal, up to md5 collisions, exactly if vectors, atoms, positions, connections and extents print the same one by one, and exactly if their hashes agree. The sites do not count: lattices with the same structure and extents are equal, and set_periodic with any axes leaves a lattice equal to what it was (by witness a chain equals the ring made from it, and a lattice equals one whose atoms have other weights). Atoms with the same name and parameters print the same exactly if they are the same instance (the running index is printed), so two lattices built in the same way with separately created atoms are different, as finite lattices and as structures. Lattice.fromdict(todict) restores the analysed structure, equal as a structure, but neither sites nor extents nor periodic axes: the result cannot be hashed. An atom prints its name, the parameters that are not None, empty or zero, and the index. Lattice.fromdict raises ValueError for a position of wrong length and SiteOccupiedError for equal positions, whatever the extents in the dictionary. A parameter called index is printed in the place of the index, also if it is None or zero.", "quantifier": "all lattices, printers of numbers and hash functions without collisions", "why_tests_cant": "equality is characterised for all pairs of lattices; tests compare a few", "anchors": ["lattpy/lattice.py:1105-1121", "lattpy/lattice.py:1154-1161", "lattpy/atom.py:151-155", "lattpy/structure.py:1360-1365"]}
{"id": "C81", "title": "Wigner-Seitz cells and Brillouin zones: which points belong to them", "statement": "For every basis the points of wigner_seitz_cell are lattice points including the origin; check is true for points nearer to the origin than to all other points of the cell, in particular for all points nearer to the origin than to all other lattice points, and false for points nearer to another point of the cell. For hypercubic lattices of any dimension (a >= 1e-6) check decides the true cell (apart from its boundary), which is the cube |x_i| < a/2, the vertices are exactly the corners of the cube and limits are (-a/2, a/2) for every axis; for fcc the cell is the rhombic dodecahedron |x_i|+|x_j| < a/2; brillouin_zone of a hypercubic lattice is the cube with side 2 pi/a. limits are the smallest and largest coordinates of the vertices. The corners of symmetry_points are exactly the vertices of the diagram, every edge centre is the middle of two corners, and edge and face centres are equally far from two different points. linspace gives num equally spaced values from the lower to the upper limit, arange the values from the lower limit in steps below the upper limit, meshgrid all combinations, NaN outside the cell. The expectation that check decides the cell of every lattice is refuted: the bcc cell is the octahedron |x|+|y|+|z| < 3a/4 (second neighbours are missed), by witness a rhombic lattice and the Brillouin zone of fcc are wrong and a rectangular lattice raises. size of a hypercubic cell is zero in two and more dimensions and an IndexError in one. Lengths count as equal exactly if |x - y| <= 1e-8 + 1e-5 y (as real numbers), also though the model decides it from the squares.", "quantifier": "all bases, dimensions, lattice constants and points; all nearest point queries and Voronoi diagrams meeting their specification", "why_tests_cant": "membership is claimed for every point of the space and every lattice constant; tests check a few points of a square lattice, and wrong cells of other lattices are not noticed", "anchors": ["lattpy/spatial.py:371-530", "lattpy/basis.py:536-574"]}
{"id": "C82", "title": "vrange lists exactly the grid of its ranges, in order, without repetition", "statement": "For start, stop and step of equal length vrange succeeds exactly if there is at least one axis, no step is zero, no end lies further back than one step behind the start, and the sort axis exists. The rows are then exactly the vectors with coordinates start_i + k step_i (k >= 0) before stop_i (below for positive, above for negative steps), no two of them are equal, their number is the product of ceil((stop_i - start_i)/step_i), and they are ordered by the sort axis, rows with the same value there (and all rows without sort axis) in the order of the first axis that differs, in the direction of its step. One argument is the end and ranges start at zero, a missing step or None is one, a number is the step of all axes, a number for start or stop is a single axis, a keyword step beside a positional one is ignored, more than three arguments raise, and coordinates in excess are silently dropped.", "quantifier": "all numbers of axes, rational starts, ends and steps of either sign, sort axes", "why_tests_cant": "completeness, order and stability of ties are claimed for all ranges; tests list a few small grids", "anchors": ["lattpy/spatial.py:166-222"]}
{"id": "C83", "title": "Convex hull shapes contain exactly the convex combinations of their points", "statement": "Given that the half spaces of scipy's hull equations meet in the convex hull of the points, ConvexHull.contains with tolerance 0 answers true exactly for the convex combinations (weights >= 0, sum 1) of the points. With a tolerance >= 0 it contains the given points, its answer is convex and grows with the tolerance, and for normals of length at most one it contains every point within the tolerance of the hull. limits() gives per axis the least and greatest coordinate of the points; these bound all contained points and are attained by contained points. Lattices built into convex hulls satisfy the build property (C33).", "quantifier": "all dimensions, points, hull equations, query points and tolerances", "why_tests_cant": "containment is claimed for all points of space and all hulls; tests sample a few points of one polygon", "anchors": ["lattpy/shape.py:284-301"]}
{"id": "C84", "title": "Corners, edges and surfaces of boxes are those of the box", "statement": "For positive sizes a box of dimension d has 2^d corners, one for every choice of lower or upper side along each axis and no others. Edges and surfaces exist in two and three dimensions only. The edges are exactly the pairs of corners that agree in all coordinates but one, each once in one direction. In two dimensions the surface is a closed walk along edges through the four corners; in three dimensions there are six surfaces, each a closed walk along edges through four different corners, one for each of the six sides of the box.", "quantifier": "all dimensions, positive sizes and positions", "why_tests_cant": "wrong corner numbers in the literal index tables only show in plots, which no test inspects", "anchors": ["lattpy/shape.py:85-128"]}
{"id": "C85", "title": "Periodic hypercubic boxes are tori", "statement": "For a box of cells of a hypercubic lattice with one atom and nearest-neighbour connections, set_periodic for a non-empty list of different axes, each with at least three cells, succeeds and records the axes. Indices and positions stay. Each site then lists every cell one step away, counting modulo the number of cells along the periodic axes, exactly once and no other site, all at the lattice constant. A neighbour is marked periodic exactly if it is not a neighbour without the boundary conditions; its vector is plus or minus the number of cells along one periodic axis and takes the site next to the neighbour. If all axes are periodic every site has 2d neighbours. finite_hypercubic(size, periodic=axes or True) yields this torus with floor(size/a)+1 cells along each axis.", "quantifier": "all dimensions, sizes, lattice constants > 1e-3, origins, axes with three or more cells", "why_tests_cant": "needs all dimensions, sizes and choices of periodic axes; a test checks the neighbours of one small lattice", "anchors": ["lattpy/lattice.py:568-701", "lattpy/data.py:452-467", "lattpy/__init__.py:398-452"]}
{"id": "C86", "title": "Lengths and scales of the edges of a dispersion path", "statement": "For a path whose points have the same number of coordinates, distances() gives the euclidean length of every edge, one less than points, and its sum is at least the distance of the first from the last point. distances() raises exactly if two consecutive points have different lengths and neither has one coordinate. scales() raises exactly for fewer than two points; otherwise, if the first two points differ, the first scale is 1 and the others are the lengths in units of the first edge; if they are the same no scale is finite. Scaling all points by c > 0 multiplies the distances by c and leaves the scales. The ready-made paths have the scales (1, 1), (1, 1, sqrt 2) and (1, 1, sqrt 2, sqrt 3) for every lattice constant.", "quantifier": "all paths and points in all dimensions, all lattice constants", "why_tests_cant": "infinitely many paths, and irrational lengths that a test can only compare approximately", "anchors": ["lattpy/disptools.py:429-443", "lattpy/spatial.py:43-63"]}
{"id": "C87", "title": "The atom dictionary groups positions by name", "statement": "get_base_atom_dict returns one entry for each atom name, in the order of first occurrence, with the first atom of that name as key and the positions of all atoms of that name in order as value, if no atom has a parameter called 'name'. In one dimension with the default atleast2d=True it raises as soon as there is an atom. A parameter 'name' can cause a KeyError (by witness).", "quantifier": "all lists of atoms and positions, all hash functions", "why_tests_cant": "needs all sequences of atoms with repeated names and all hash functions; the only test uses three atoms in two dimensions", "anchors": ["lattpy/structure.py:880-916", "lattpy/atom.py:132-148"]}
{"id": "C88", "title": "Limits of the lattice indices", "statement": "get_index_limits raises exactly for data without sites; otherwise it gives the smallest and the largest entry of every column of the indices, both attained. get_cell_limits and get_translation_limits agree, and are these limits without the column of the atom. For a box of cells they are the first and the last cell along each axis. Periodic translation vectors in lattice coordinates are one cell longer than the limits are apart along the periodic axes and zero along the others.", "quantifier": "all data with indices of the same length; all boxes of cells", "why_tests_cant": "a property of all tables of indices; the functions are excluded from coverage", "anchors": ["lattpy/data.py:366-395", "lattpy/data.py:722-723", "lattpy/lattice.py:506-514"]}
{"id": "C89", "title": "Only the last call of set_periodic counts", "statement": "After any sequence of calls of set_periodic, successful or not, on a lattice with well-formed data, a further call set_periodic(y) succeeds or fails exactly as it would have done on the original lattice, and leaves exactly the same data; only the data and the periodic axes of the lattice ever change. The periodic axes are those asked for, unless the call fails or finds no periodic neighbours: then those of the earlier call stay although no neighbour is periodic any more (by witness: a 5 x 2 strip made periodic along the first and then along the second axis keeps the first axis and minimum_distances still go around; an axis out of range removes the periodic neighbours and keeps the axes). set_periodic(None) and set_periodic(False) always succeed, leave exactly the regular neighbours and no periodic axes, and restore the neighbour, distance and mask tables if there were no periodic neighbours at the start.", "quantifier": "all lattices with valid basis and well-formed data in which regular neighbours precede periodic ones and padding (as build leaves it, C71), all KD-trees, all sequences of calls", "why_tests_cant": "quantifies over all sequences of calls on all lattices; stale axes show only in a later computation", "anchors": ["lattpy/lattice.py:646-701", "lattpy/lattice.py:568-643", "lattpy/data.py:435-467", "lattpy/data.py:489-495"]}
{"id": "C90", "title": "Periodic blocks of any lattice are tori", "statement": "Let the sites of a lattice be all atoms of a block of L_1 x ... x L_d unit cells (any valid basis, any number of atoms and connections), built with the neighbours of C71. If along every periodic axis each bond of the infinite lattice spans less than half of the block, and (in three or more dimensions) each bond goes along at most two periodic axes, with the first axis among them or in the same direction along both, then set_periodic(axes) on a primitive (or axis-aligned) block and build(..., periodic=axes) succeed and give the torus: a site lists another one exactly if some bond of the infinite lattice leads from it to the other counting cells modulo L_k along the periodic axes, it lists it once, and at the length of the bond. A neighbour is marked periodic exactly if the bond leaves the block; its vector is +-L_k or 0 along the periodic axes, 0 along the others, and takes the site to the start of the bond. If all axes are periodic, each site has as many neighbours as its atom has in the infinite lattice. Without the condition on the directions this is false (by witness: the primitive 3 x 3 x 3 block of the fcc lattice has sites with 11 instead of 12 neighbours).", "quantifier": "all dimensions, bases, unit cells, connection matrices, block sizes and positions, sets of axes, KD-trees, under the guards of C71 (at most 255 distances, distances of 6e-6 or more, padding or complete table, query count not exceeded by the atoms in range)", "why_tests_cant": "needs all lattices, block sizes and axes; tests compare neighbour lists of one lattice, and the missing neighbours of fcc blocks occur only at some boundary sites", "anchors": ["lattpy/lattice.py:504-559", "lattpy/lattice.py:568-701", "lattpy/lattice.py:750-888", "lattpy/data.py:452-467"]}
{"id": "C91", "title": "Neighbours of a built lattice are the neighbours of the infinite one that were built", "statement": "For a lattice built with the guards of C71, let i be a site with the cell N and the atom a. If a site j is among get_neighbors(N, a, k) of the structure (the infinite lattice) for some distance index k, then it is a neighbour of i in the data, at the k-th neighbour distance of the atom; conversely a neighbour of i in the data is among them if and only if its cell relative to N is one of the cells searched by analyze. If every bond of the infinite lattice lies in a searched cell, then neighbors(i) lists exactly the built sites among the infinite lattice's neighbours, neighbors(i, k') for the index k' of the distance in the lattice lists exactly the built sites of get_neighbors(N, a, k) for the index k of the same distance in the structure, no site is listed twice, a site never has more neighbours than its atom has in the infinite lattice, and it has the same number if all of them were built. Without that condition the lattice may have neighbours that the structure lacks (by witness: vectors (1,0), (4,1)).", "quantifier": "all dimensions, valid bases, unit cells, connection matrices, shapes and positions, callbacks, KD-trees and argsorts; every site, every distance index", "why_tests_cant": "relates two independent search algorithms (cell shells of the infinite lattice; KD-tree queries on the finite sites) for all lattices and shapes; tests compare coordination numbers of a few lattices, for which the search of the cells is complete", "anchors": ["lattpy/structure.py:706-752", "lattpy/structure.py:566-619", "lattpy/lattice.py:311-330", "lattpy/lattice.py:568-701", "lattpy/data.py:452-467"]}
{"id": "C92", "title": "Matrices built from the data map are the Hamiltonians of the lattice", "statement": "Fill an array of zeros by any sequence of assignments data[dmap.onsite(alpha)] = eps and data[dmap.hopping(k)] = t (alpha, k >= 0 or None). build_csr(data) is an N x N matrix for N sites whose element (i, j) is the sum of the last value assigned to the atom of site i (if i = j) and of the last values assigned to the distance indices of the links from i to j. If no site is its own neighbour and none is listed twice: eps of the atom on the diagonal, t_k for neighbours at the k-th distance, 0 for all other pairs, and the matrix is symmetric if the links are mutual. For every lattice made by build (guards of C71, at most 128 atoms): (i, j) is t_k exactly for sites connected at the k-th distance, 0 otherwise, and the matrix is symmetric. build_bsr with B x B blocks gives the NB x NB matrix with these blocks. The loop over sites and nearest neighbours of the README gives the same matrix as the map, if there are neighbours at all; a lattice of one site reports the neighbour 1, which does not exist, and the loop fails (by witness). Negative numbers select the wrong kind of element (by witness).", "quantifier": "all data (any lattice, any history leaving a fresh map), all element types with an associative commutative addition, all sequences of assignments, all block sizes, any argsort", "why_tests_cant": "tests compare one tridiagonal matrix; the claim is about all lattices, parameters, orders of assignment and element types, and about equality of two constructions", "anchors": ["lattpy/data.py:142-207", "lattpy/data.py:98-140", "lattpy/data.py:612-632", "lattpy/lattice.py:332-347"]}
{"id": "C93", "title": "Bloch waves and fourier_weights give the energies of periodic lattices", "statement": "The product of the matrix of C92 and a vector psi is, at site i, eps(atom of i) psi_i plus the sum of t_k psi_j over the links of i. If the lattice is a block of cells with all axes periodic (as C90 describes, with bonds shorter than half of the block), and q turns by whole turns over the block along every axis, then the matrix takes the Bloch wave u(atom) exp(i q.position) to the Bloch wave whose amplitude on atom a is eps_a u_a plus the sum over the bonds (a, b, m) of the infinite lattice of t exp(i q.(R_b + V m - R_a)) u_b; if u solves this eigenvalue problem of the unit cell the wave is an eigenvector of the matrix. For every lattice with one atom per cell made by build with all axes periodic (guards of C90, all bonds in the searched cells): the distances of the lattice are those of the structure, and exp(i q.position) is an eigenvector with the eigenvalue eps + sum_k t_k fourier_weights(q, distidx=k).", "quantifier": "all periodic blocks of any dimension, atoms, lattice vectors and numbers of cells, all hoppings and onsite values (complex numbers), all fitting wave vectors, any correct tree and argsort", "why_tests_cant": "needs real trigonometry for every wave vector and an argument about the whole pipeline analyze, build, set_periodic, data map, matrix", "anchors": ["lattpy/structure.py:843-878", "lattpy/data.py:142-207", "lattpy/lattice.py:396-486", "lattpy/lattice.py:645-700"]}
{"id": "C94", "title": "Order of the sites and lattices moved by a lattice vector", "statement": "vindices lists the grid points sorted by the sort axis and in dictionary order where it agrees (without axis: in dictionary order), if the ranges fit the integer type of C16. The index table of every build (shape, position, primitive, check, callback) is in strict dictionary order with the atom last, if the searched ranges fit; ranges longer than half of the integer type can break the order, by witness. Hence two builds of a structure with the same set of sites have equal index tables and the same positions, and if the sites of the second are those of the first moved by a lattice vector m, the tables are row by row those of the first moved by m. This is the case for a shape (box, circle) and its copy moved by the lattice vector, if the inverse of the lattice vectors has no negative entries and no site lies in the strip of the tolerance 1e-3; on a skewed basis the moved box can find fewer sites, by witness. Two builds of an analysed structure whose sites differ by such a move both succeed (guards of C71 for the first only) and list for every row the same neighbours at the same distances.", "quantifier": "all dimensions, lattice vectors, atoms, sizes, positions, shapes, masks and moves, any correct tree and argsort", "why_tests_cant": "the order of all sites of all builds and the equality of whole tables of pairs of lattices; tests compare single small lattices", "anchors": ["lattpy/spatial.py:vindices", "lattpy/structure.py:LatticeStructure.build_translation_vectors", "lattpy/structure.py:LatticeStructure.build_indices", "lattpy/lattice.py:Lattice.build"]}
{"id": "C95", "title": "Nearest neighbours, iteration over neighbours and connections of two lattices", "statement": "If every known distance is that of some neighbours (so after every set with padding), nearest_neighbors lists, in stored order, the neighbours of a site whose distance is the smallest one of the whole lattice (with unique only those with a larger number); the closest neighbours of a site that lie further away are not listed, and after remove no site may have nearest neighbours any more, both by witness. iter_neighbors yields the distances of a site in increasing order, each exactly once with the neighbours at it, together all neighbours of the site. compute_connections succeeds if the lattice is analysed and both are built and fails otherwise; it lists exactly the pairs of sites of the two lattices that are at most the query radius of the structure apart, each once, sorted by the site of the first lattice, with their distance; with equal radii the call with the lattices exchanged lists the same pairs exchanged. It pairs sites with themselves if a lattice is compared with itself and lists pairs of atoms without connection, by witness. The map of a lattice is that of its data; it is kept, and making it changes neither sites nor neighbours.", "quantifier": "all lattices with well-formed data, sites, tables, radii, any correct ball query", "why_tests_cant": "the answer depends on all distances of the lattice and on all pairs of sites of two lattices; tests compare single small lattices", "anchors": ["lattpy/lattice.py:Lattice.nearest_neighbors", "lattpy/lattice.py:Lattice.iter_neighbors", "lattpy/lattice.py:Lattice.compute_connections", "lattpy/lattice.py:Lattice.dmap"]}
{"id": "C96", "title": "Distance numbers of the built lattice and of the structure", "statement": "A lattice that was built knows, in ascending order, exactly the distances at which two of its sites are neighbours, followed by the infinite distance of the padding. Let i be a site with the cell N and the atom a of a lattice with the guards of C91. The structure's get_neighbors(N, a, k) succeeds for the first so many k and raises IndexError for all others; it lists the neighbours at the k-th smallest distance of the atom. If that distance does not occur in the lattice, none of these neighbours was built. If it occurs, there is a number k' such that neighbors(i, k') lists exactly the built ones among them, once each; k' = k if the smaller distances of the lattice are the smaller distances of the atom. Otherwise the two numbers may differ (by witness): in a row of a rectangular lattice the shorter distance is missing, so the distance number 1 of the structure is number 0 in the lattice and get_neighbors and neighbors with the same number list disjoint sites; with three atoms of which one has only a longer bond, nearest_neighbors of that atom's sites is empty although get_neighbors with number 0 is not.", "quantifier": "all dimensions, valid bases, unit cells, connection matrices, shapes and positions, callbacks, KD-trees and argsorts; every site, every distance index", "why_tests_cant": "the distance number means the position in two independently computed lists; on full blocks of one-atom lattices, as used by tests, the lists coincide", "anchors": ["lattpy/structure.py:706-752", "lattpy/structure.py:566-619", "lattpy/lattice.py:568-701", "lattpy/data.py:286-320", "lattpy/data.py:579-596"]}
{"id": "C97", "title": "Lattice data behaves as a graph under any history of operations", "statement": "Read the data as a graph: numbered sites with index, position and connections (target, distance, periodic or not; order irrelevant). After every history of set, sort, sort_neighbors, map, add_neighbors (room in a packed row, known distance), append (guards of C45), set_periodic (guards of C46) and remove_periodic, the data is exactly the graph obtained by the corresponding operations of graphs: the graph of the tables, renumbering, nothing, nothing, one more connection, both graphs side by side without periodic marks, replacement of the periodic connections, their removal; get_neighbors lists the targets of the connections, and of the periodic ones. Any number of remove calls with distinct existing sites may follow: each yields the graph of the remaining sites. If connections go both ways at the same distance, they still do after each of these operations, provided connections and periodic entries are given in both directions; then j is listed as neighbour of i exactly if i is listed for j, at the same distance.", "quantifier": "all finite histories, including appends of data with histories of its own; all data, permutations, periodic entries, argsorts", "why_tests_cant": "a refinement over unboundedly many operations; single operations are tested on a few lattices", "anchors": ["lattpy/data.py:286-320", "lattpy/data.py:322-352", "lattpy/data.py:435-573", "lattpy/data.py:579-632"]}
{"id": "C98", "title": "Lattice.plot draws every site and every bond once", "statement": "For a built lattice of at most three dimensions with consistent data, plot draws every site at its position in the colour of its atom, one line for every regular neighbour with a higher index, in the colour that was last given for the pair of atoms or black, and, if show_periodic is set, one grey line for every periodic neighbour, which covers the fraction pscale of the way to the image of the neighbour. If every regular neighbour is listed once and mutually, every bond is drawn exactly once. For a box of a hypercubic lattice with one atom and periodic axes of three or more cells, every black line is one step to a site of the box, every grey line is the fraction pscale of a step out of the box, all steps between sites are drawn, and all steps out of the box along periodic axes are drawn. Lattices of more than three dimensions raise ValueError and unbuilt lattices IndexError.", "quantifier": "all lattices with consistent data, colours and scales; all boxes and periodic axes", "why_tests_cant": "a test can only look at one picture or count its lines", "anchors": ["lattpy/lattice.py:1214-1253", "lattpy/plotting.py:280-290", "lattpy/plotting.py:545-581"]}
{"id": "C99", "title": "The picture of the unit cell", "statement": "For one to three vectors of matching length, draw_unit_cell draws only edges of the parallelepiped that they span and draws every edge; there are 0, 2 or 12 lines besides the arrows. For an analysed lattice plot_cell draws one line from every atom to each of its neighbours at its first num_distances distances, in the colour of the pair; the small discs are exactly at the neighbours outside the cell. Neighbours at further distances of an atom are not drawn (by witness: atoms at 0 and 0.3 of a chain with one connection for every pair). The atoms are drawn at their positions; the small discs have the kind of their atom and every place occurs once. More than three dimensions raise ValueError.", "quantifier": "all lattice vectors in one to three dimensions, all analysed lattices, all colours", "why_tests_cant": "needs all lattice vectors and unit cells; the missing neighbours need an atom with more distances than connections of a pair", "anchors": ["lattpy/plotting.py:684-700", "lattpy/structure.py:1478-1529", "lattpy/structure.py:156-158"]}
{"id": "C100", "title": "Curves of a dispersion plot", "statement": "plot_dispersion with P sections of n samples, P+1 labels, P scales (or none) and a colour for every band draws one curve per band through all P*n samples: sample j of section i is at the tick of point i plus j*scale_i, its height is the energy of that row and band. Band b has colour C<b>, the one colour, or element b of the list (of an atom, its colour). With fill, a strip per band spans exactly from its lowest to its highest energy over all positions. New axes have P+1 ticks at the points, the labels, and end at the last tick. A band without a colour fails: an atom given alone (it has a length and is taken for the list), a list shorter than the number of bands. A number of samples that is no multiple of P fails in matplotlib; fewer than two labels or no samples fail. plot_disp_dos draws density i in the colour of band i, density against energy, and fails for more densities than bands unless a list of colours is given. DispersionPath.subplots has its ticks at i*n, so in a plot with unit steps into these axes the tick of point i is i to the right of its sample. An empty list of scales and a number of scales that is not P fail, as does a density with another number of values than energies.", "quantifier": "all dispersions, numbers of sections, samples and bands, labels, scales and colours (atoms with the parameter color)", "why_tests_cant": "The drawn coordinates are not inspected by tests, and the statement is about all numbers of sections, samples and bands.", "anchors": ["lattpy/disptools.py:plot_dispersion", "lattpy/disptools.py:plot_disp_dos", "lattpy/disptools.py:_color_list", "lattpy/disptools.py:bandpath_subplots", "lattpy/disptools.py:DispersionPath.subplots"]}
{"id": "C101", "title": "What plot_bands draws", "statement": "Over a line, plot_bands draws one curve per band through (k, energy) and fails if a band has another number of energies than there are wave numbers. Over a plane, the tables must have len(ky) rows and len(kx) columns (at least two of each), other shapes fail; row i, column j is drawn at (kx[j], ky[i]) with the energy of a single band or the sum of the absolute energies of all bands. The label of the colour bar is put between bars whenever there is one, so also for a single band that is drawn with its sign (by witness: a height -1 under the label |E(k)|). Three and more dimensions raise NotImplementedError, a plane without exactly two lists of wave numbers fails.", "quantifier": "all grids of wave numbers, all numbers and tables of bands (at least one), all labels", "why_tests_cant": "Heights and labels handed to matplotlib are not inspected by tests, and the statement is about all grids and bands.", "anchors": ["lattpy/disptools.py:plot_bands"]}
{"id": "C102", "title": "Plots of shapes show the shapes", "statement": "Shape.plot of a box (positive sizes, two or three dimensions, with or without basis): the lines cover exactly the points of the edges and the filled areas exactly the box (two dimensions) or its sides (three dimensions), at the points with these coordinates in the basis; other dimensions fail. ConvexHull.plot: one line per simplex joining all its points; every line, and in three dimensions every filled triangle, is on the surface of the contained points, and covers all of it if no further points are on the planes of the simplices; in two dimensions the filled polygon is exactly the set of contained points; other dimensions raise NotImplementedError. Donut.plot: two closed lines of 99 equal steps around the origin at the two radii in opposite directions, joined to the filled polygon. They are around the position of the shape only if that is the origin: the position is ignored (by witness). The corners of the filled areas are passed in order: their outlines consist of edges of the box, or lie on the surface of the hull.", "quantifier": "all boxes of positive sizes and all square bases; all point lists with the equations, simplices and vertices of their hull; all positions and radii of rings", "why_tests_cant": "Plots are excluded from the coverage, lines and polygons handed to matplotlib are not inspected, and the statement compares infinite sets of points.", "anchors": ["lattpy/shape.py:Shape.plot", "lattpy/shape.py:ConvexHull.plot", "lattpy/shape.py:Donut.plot"]}
{"id": "C103", "title": "Keyword arguments of the constructors", "statement": "LatticeStructure and Lattice with atoms and cons: the atoms are stored in the given order, missing positions at the origin; the first position of wrong length raises ValueError, the first that is taken SiteOccupiedError. For a dictionary of pairs the number of distances of two atoms is that of the last entry whose references (numbers, negative ones from the end, names, or atoms) mean these atoms in either order, and zero without any; the object is analysed with this table, so the neighbours are the configured ones, or NoConnectionsError is raised if all numbers are zero. The order of the entries and of the two references does not matter if entries for the same atoms agree. A number is the same as that number for all pairs. Names that no atom has are ignored; a foreign atom raises ValueError, an index out of range beside a reference that means something IndexError. Without atoms a number raises AttributeError, pairs with names NoAtomsError, pairs of indices TypeError. A shape is built, with the periodic axes; without a shape these are ignored; a shape without cons raises NoConnectionsError, or NotAnalyzedError without atoms. The ready-made lattices are calls of the constructor.", "quantifier": "all bases, lists of atoms, dictionaries of connections of any length, shapes and axes", "why_tests_cant": "The tests construct a few lattices with single entries; overriding entries, unknown names, permutations and the exceptions depend on the whole list of entries.", "anchors": ["lattpy/structure.py:LatticeStructure.__init__", "lattpy/lattice.py:Lattice.__init__"]}
{"id": "C104", "title": "Dispersion plots of a path are drawn against its length", "statement": "For a path whose points have the dimension of the path and whose first two points differ, and samples at the points of build(n) with n >= 2, DispersionPath.plot_dispersion draws one curve per band; the first sample is at 0, two consecutive samples are as far apart on the axis as in reciprocal space, times a positive factor that is the same everywhere ((n-1) divided by the length of the first edge), and the heights are the energies of the samples. The ticks carry the labels and are at the samples of the points, also spaced as the points. Something is drawn exactly if the path has two points, the first two of them differ, and the number of samples is a positive multiple of the number of edges; otherwise it fails or no coordinate is finite.", "quantifier": "all dimensions, paths of any number of points, all numbers of samples and bands", "why_tests_cant": "Plots are excluded from the coverage, and the statement relates square roots of all sections of all paths.", "anchors": ["lattpy/disptools.py:DispersionPath.plot_dispersion", "lattpy/disptools.py:_scale_xaxis", "lattpy/disptools.py:DispersionPath.scales"]}
{"id": "C105", "title": "The analysis finds the true neighbours of the infinite lattice", "statement": "The cells examined by analyze() are exactly those of the block of coordinates up to 2m+1 (m the greatest number of distances configured) with at most 2m + l shorter lengths in this block (l: different lengths of the basis vectors). If all sites of the infinite lattice at the first connections[a,b] distances between two sublattices lie in these cells, get_neighbors(n, a, i) returns exactly the sites of the infinite lattice at the i-th of these distances; a neighbour outside these cells is missed (witness: basis (1,0),(10,1)). One atom, one distance: enough that the shortest lattice vectors have coordinates up to 3. Consequences for all lattice constants above 1/1000 (chain: 1e-6): simple_chain with any number k of distances has the two neighbours n-(i+1), n+(i+1) at distance number i < k and IndexError beyond; the hypercubic lattice of any dimension d has 2d nearest neighbours, one step along one axis; fcc has 12, bcc 8 with the listed cells; in rock salt the nearest neighbours are the 6 listed ones of the other kind, then 12 of the own kind. Any number k of distances: for a lattice with one atom whose squared lengths are e times an integer form that reaches c j^2 along some direction, with the cells of form at most c k^2 having coordinates up to 2k+1 and e not below (4 c k^2 + 2) 1e-12, get_neighbors with index i < k returns exactly the sites at the i-th smallest length of the infinite lattice; so for the hypercubic lattices of every dimension (sums of d squares), fcc and bcc, with every k.", "quantifier": "all analysed structures of any dimension with any atoms and connections; all lattice constants, cells, numbers of distances and distance indices", "why_tests_cant": "the claim compares the result of a search in a finite block with the infinitely many sites of the lattice, for every lattice constant and number of distances", "anchors": ["lattpy/structure.py:_compute_base_neighbors", "lattpy/structure.py:analyze", "lattpy/structure.py:get_neighbors", "lattpy/basis.py:get_neighbor_cells", "lattpy/__init__.py:simple_chain", "lattpy/__init__.py:nacl_structure"]}
{"id": "C106", "title": "Neighbours of built lattices at several distances", "statement": "Take a lattice with one atom, k <= 255 distances and squared lengths e times an integer form as in C105. If the first distance rounds to at least 6e-6 and no other length of the infinite lattice lies below the search radius (the k-th distance plus a tenth of the first), build() succeeds for every shape, position and callback that select at least one site, and the neighbours of a site in cell n are exactly the selected sites in cells m with 0 < f(m-n) <= the k-th value of the form, each once, at the distance rounded to six places. With two distances and every lattice constant above 1/1000 this gives the nearest and next nearest neighbours of hypercubic lattices in every dimension d >= 2 (cell differences with sum of squares 1 and 2, at a and sqrt(2) a), of fcc (a/sqrt(2) and a) and of bcc (sqrt(3)/2 a and a).", "quantifier": "all one-atom lattices with an integer quadratic form, all numbers of distances up to 255, all dimensions, shapes, positions, callbacks and sites; all lattice constants for the cubic lattices", "why_tests_cant": "the set of selected sites, the dimension, the lattice constant and the number of distances are unbounded; tests look at a few sizes with the first distance", "anchors": ["lattpy/lattice.py:build", "lattpy/structure.py:build_indices", "lattpy/structure.py:compute_neighbors", "lattpy/structure.py:_filter_neighbors", "lattpy/data.py:set"]}
{"id": "C107", "title": "Neighbours in the honeycomb lattice", "statement": "np.sqrt(3) is a rational q with q^2 between 2.99 and 3.01; the lattice constant a exceeds 1/1000. honeycomb(a) and graphene(a) succeed; the nearest neighbours of a site are of the other kind: the one in the same cell (at distance a) and those in the cells one step of -1 (from the first kind) or +1 (from the second) along one basis vector (at distance a sqrt(1+q^2)/2), of these two groups the one with the smaller distance rounded to six places, both if the rounded distances agree; further indices raise IndexError. If a has at most six decimals, a <= 1e6 and |q^2-3| <= 1e-12, the rounded distances agree and every site has exactly three neighbours; in general it need not (witness a = 131/128: two). simple_hexagonal(a): of the cells +-e1, +-e2 and +-(e1-e2), those at the smaller rounded distance.", "quantifier": "all lattice constants above 1/1000, all values for the square root of three near it, all cells and both kinds of sites, all atoms", "why_tests_cant": "tests use one lattice constant; the neighbours depend on how two distances that are equal only mathematically are rounded", "anchors": ["lattpy/__init__.py:honeycomb", "lattpy/__init__.py:graphene", "lattpy/__init__.py:simple_hexagonal", "lattpy/basis.py:hexagonal", "lattpy/structure.py:_compute_base_neighbors", "lattpy/structure.py:get_neighbors"]}
{"id": "C108", "title": "Neighbours of built honeycomb lattices", "statement": "If the two distances a and a sqrt(1+q^2)/2 (q the value of np.sqrt(3)) round to the same number k of units 1e-6 - as for every lattice constant with at most six decimals, 1/1000 < a <= 1e6, |q^2-3| <= 1e-12 - then build() of honeycomb(a) or graphene(a) succeeds for every shape, position and callback that select at least one site, and the neighbours of a site of kind x in cell N are exactly the selected sites of the other kind in the cell N and the two cells one step of -1 (x=0) or +1 (x=1) along one basis vector, each once, at distance k; so no site has more than three neighbours and sites of one kind are never linked.", "quantifier": "all such lattice constants and values of the square root of three, shapes, positions, callbacks and sites", "why_tests_cant": "the set of selected sites is unbounded, and so are the lattice constants; the search radius, the number of points asked for and the rounding all enter", "anchors": ["lattpy/lattice.py:build", "lattpy/__init__.py:honeycomb", "lattpy/__init__.py:graphene", "lattpy/structure.py:compute_neighbors", "lattpy/structure.py:_filter_neighbors", "lattpy/structure.py:build_indices"]}
{"id": "C109", "title": "Index labels of lattice plots", "statement": "Lattice.plot(show_indices=True) of a lattice in two or three dimensions writes exactly one text per site: the decimal digits of the site's number, at the position of the site plus the offset in every coordinate (no offset, a number or a vector); different sites have different texts, and sites at different positions texts at different places. In one dimension the first label raises ValueError with numpy 1.24 and later ([pos, 0] is ragged); with older versions the label is at (x + offset, offset). plotting.text writes as many texts as there are pairs of a string and a position.", "quantifier": "all well-formed lattice data with any number of sites, all offsets that fit", "why_tests_cant": "plots are checked by eye, if at all, and only for small lattices in the plane; the number of sites is unbounded", "anchors": ["lattpy/plotting.py:text", "lattpy/plotting.py:draw_indices", "lattpy/lattice.py:plot"]}
{"id": "C110", "title": "Pictures of Voronoi diagrams", "statement": "VoronoiTree.draw draws each ridge without a vertex at infinity exactly once (in space as a closed line and as a surface), the points, the rays to them and the vertices. Every point of a drawn line or surface has the two points of its ridge as nearest points of the data, none nearer. In two and three dimensions it succeeds exactly if there is a finite ridge to draw and (numpy 1.24 and later) all finite ridges have equally many vertices; points in more than three dimensions cannot be drawn. So the diagram of three points of the plane raises IndexError with the default arguments. In one dimension the points and the points half way to the origin are drawn and nothing fails.", "quantifier": "all point sets with a Voronoi diagram as specified for scipy, all arguments, all points of the drawn lines and surfaces", "why_tests_cant": "the drawing functions are excluded from coverage; point sets are unbounded and a picture has infinitely many points", "anchors": ["lattpy/spatial.py:VoronoiTree.draw", "lattpy/plotting.py:draw_lines", "lattpy/plotting.py:draw_surfaces", "lattpy/plotting.py:draw_points", "lattpy/plotting.py:draw_vectors"]}
{"id": "C111", "title": "Honeycomb lattices with periodic boundary conditions", "statement": "If the two distances a and a sqrt(1+q^2)/2 (q the value of np.sqrt(3)) round to the same number k of units 1e-6 - as for every lattice constant with at most six decimals, 1/1000 < a <= 1e6, |q^2-3| <= 1e-12 - and the sites selected by a primitive build of honeycomb(a) or graphene(a) are a block of cells with at least three cells along each periodic axis, then build(..., periodic=axes) succeeds, keeps the selected sites, and the neighbours of a site of kind x in cell N are exactly the sites of the other kind in the cell N and the two cells one step of -1 (x=0) or +1 (x=1) along one basis vector, counted modulo the block along the periodic axes, each once and at distance k; with both axes periodic every site has exactly three neighbours.", "quantifier": "all such lattice constants and values of the square root of three, shapes, positions and callbacks that select a block, lists of distinct periodic axes, and sites", "why_tests_cant": "block sizes and lattice constants are unbounded; periodic links come from translated copies of the block searched with a tree and must not repeat links of the open block", "anchors": ["lattpy/lattice.py:build", "lattpy/lattice.py:set_periodic", "lattpy/lattice.py:periodic_translation_vectors", "lattpy/lattice.py:_build_periodic_translation_vector", "lattpy/__init__.py:honeycomb", "lattpy/__init__.py:graphene", "lattpy/data.py:add_neighbors"]}
{"id": "C112", "title": "Built lattices with a ring of nearest cells, open and periodic", "statement": "Take a lattice with one atom, connected to its nearest neighbours, and a non-empty list 'near' of cells such that the vectors to these cells all have lengths that round to the same k >= 6 units of 1e-6, every other lattice vector is longer than 1.1 k units, and the cells of 'near' are among those the analysis examines. Then build() succeeds for every non-empty selection of sites, keeps the selected sites, and links the site in cell N exactly to the selected sites in the cells N+n, n in 'near', each once and at distance k. If the selected sites are a block of cells, the build is primitive or the lattice axis-aligned, and no cell of 'near' is half a block or more away along a periodic axis (beyond two dimensions also: goes along at most two periodic axes, and along two of them only if one is the first axis of space or both steps have the same sign), then build(..., periodic=axes) succeeds and the neighbours are the sites of those cells counted modulo the block along the periodic axes; with all axes periodic every site has exactly len(near) neighbours. Instances: simple_hexagonal (six neighbours if a sqrt(9+q^2)/2 and a q round alike; periodic axes at least three cells wide), the face-centred (twelve) and body-centred (eight) cubic lattices (periodic axes at least three cells wide and not both the second and the third).", "quantifier": "all bases, atoms, rings of nearest cells, shapes, positions, callbacks, blocks, lists of distinct periodic axes, lattice constants of the instances, and sites", "why_tests_cant": "block sizes and lattice constants are unbounded, and the analysis, the tree search with radius 1.1 k and the translated copies of the block must agree for every one of them", "anchors": ["lattpy/lattice.py:build", "lattpy/lattice.py:set_periodic", "lattpy/structure.py:analyze", "lattpy/structure.py:get_neighbors", "lattpy/__init__.py:simple_hexagonal", "lattpy/basis.py:fcc", "lattpy/basis.py:bcc", "lattpy/data.py:add_neighbors"]}
{"id": "C113", "title": "Primitive blocks of hexagonal and honeycomb lattices, end to end", "statement": "On the hexagonal basis with lattice constant a >= 7/5 and cached vector norms between 0 and 2a, build((s1, s2), primitive=True) selects exactly the sites of the cells 0 <= n1 < N1, 0 <= n2 < N2, each once, where the atoms lie on the first axis between 0 and a, N_k - 1 + x/(3a) <= s_k + 1/1000 for every atom position x, s_k + 1/1000 < N_k, s_k >= 1/10 and a (s1 + s2) < 2^60. This holds although the searched cells are found from corners of a box around the parallelogram that is scaled twice, and although the integer type of the searched cells may wrap around outside the block. Hence, without assuming that the selection is a block: honeycomb() and graphene() lattices with a of at most six decimals and N_k - 2/3 <= s_k + 1/1000 < N_k, built with any periodic axes that have at least three cells, have 2 N1 N2 sites, each linked exactly to the sites of the other kind in the three cells around it, counted modulo the block along the periodic axes, at distance a, and three links each if both axes are periodic; and simple_hexagonal() lattices with N_k - 1 <= s_k + 1/1000 < N_k have N1 N2 sites with the six cells around each as neighbours. The bound on a is needed: for graphene with a = 0.142 (nanometres) a request of 3 by 3 cells selects two cells only, and at a = 1 a strip of 1 by 7 cells loses its last cell.", "quantifier": "all lattice constants, sizes below 2^60/a, numbers of cells, norms, atom positions on the axis, lists of distinct periodic axes, and sites", "why_tests_cant": "the sizes are unbounded, the integer type of the searched cells changes with the size, and only a test at the right size would meet a cell that is missed", "anchors": ["lattpy/structure.py:build_translation_vectors", "lattpy/structure.py:build_indices", "lattpy/lattice.py:build", "lattpy/lattice.py:set_periodic", "lattpy/shape.py:Shape", "lattpy/__init__.py:graphene", "lattpy/__init__.py:honeycomb", "lattpy/__init__.py:simple_hexagonal", "lattpy/basis.py:hexagonal"]}
{"id": "C114", "title": "Primitive blocks of face-centred and body-centred cubic lattices, end to end", "statement": "On the fcc basis with lattice constant a >= 5/2 and cached vector norms between 0 and a, build((s1, s2, s3), primitive=True) of one atom per cell selects exactly the sites of the cells 0 <= n_k < N_k, each once, N1 N2 N3 in all, where N_k - 1 <= s_k + 1/1000 < N_k, s_k >= 1/5 and a (s1 + s2 + s3) < 2^60. On the bcc basis the same holds if, with T = a (s1 + s2 + s3) / 4, also s2 + 1/5 <= T, s3 + 1/5 <= T and either s2 + s3/2 + 5/4 <= T and s3 + s2/2 + 5/4 <= T, or T + s2/2 <= 125 and T + s3/2 <= 125; for a >= 4 and s1 >= 5/4 these hold for all sizes. Hence, without assuming that the selection is a block: such lattices built with periodic axes that have at least three cells each and do not contain both the second and the third axis have N1 N2 N3 sites, and each site is linked exactly to those of the twelve (fcc) or eight (bcc) cells around it that lie in the block, counted modulo the block along the periodic axes, each once and at the nearest distance. The bounds are needed: in nanometres a request of 3 by 3 by 3 cells of aluminium selects one cell and of iron four, and a rod of 1 by 10 by 1 cells of iron with a = 2.87 loses its last two cells.", "quantifier": "all lattice constants, sizes below 2^60/a, numbers of cells, norms, lists of distinct periodic axes of a film, and sites", "why_tests_cant": "the sizes are unbounded, the integer type of the searched cells changes with the size, and the missed cells depend on the proportions of the block", "anchors": ["lattpy/structure.py:build_translation_vectors", "lattpy/structure.py:build_indices", "lattpy/lattice.py:build", "lattpy/lattice.py:set_periodic", "lattpy/shape.py:Shape", "lattpy/basis.py:fcc", "lattpy/basis.py:bcc"]}
{"id": "C115", "title": "Interpolation of site values to a grid", "statement": "interpolate_to_grid(positions, values, (nx, ny), (ox, oy), method, fill_value) returns three tables with ny rows and nx columns: xx depends on the column and yy on the row only, both are equally spaced, and they start at the smallest coordinate of the sites minus the offset and (from two nodes on) end at the largest one plus the offset. Given an interpolation function that interpolates linearly in Delaunay triangles, the entry of row i and column j belongs to the node (xx[i, j], yy[i, j]): outside the convex hull of the sites it is fill_value; inside it lies between the smallest and the largest value, equals a x + b y + c if the values of all sites are a x + b y + c, and at a site that is not given twice equals the value of that site. With a positive offset all nodes of the border are fill_value; without an offset no node is, if the sites contain the corners of their bounding rectangle (as every pair of sites completed to a rectangle does). With the method 'nearest' every entry is the value of a site nearest to its node. A ValueError is raised for no sites and for positions without two coordinates; all other exceptions come from the interpolation function.", "quantifier": "all lists of positions and values, numbers of nodes, offsets, fill values and interpolation functions", "why_tests_cant": "sites, values and grids are unbounded, and a grid with exchanged axes looks right for square grids and symmetric values", "anchors": ["lattpy/plotting.py:interpolate_to_grid"]}
{"id": "C116", "title": "The tree of the sites finds the neighbours", "statement": "On an analyzed lattice kdtree(positions) returns a tree of these points (without argument: of the sites) that asks for at least two points and reaches further than every allowed distance of two atoms. tree.query(x, include_zero=True, compact=False) returns for every point x the nearest points of the tree within max_dist, each once, with its distance, in order of distance, padded with the number of points and infinity. tree.query() returns for every point of a tree of different points the same for the other points. On a lattice built under the conditions of C71 the rows of kdtree().query() contain all other sites nearer than max_dist and none farther, and site j is a stored neighbour of site i at distance x exactly if it is in row i with a distance that rounds to x and x is an allowed distance of the two atoms. Before analyze() there is no tree, and without sites only one of given positions.", "quantifier": "all lattices with any atoms and connections that can be analyzed, all shapes, positions and query points", "why_tests_cant": "lattices and points are unbounded, and a tree with too small a radius or count loses neighbours only for some unit cells", "anchors": ["lattpy/lattice.py:Lattice.kdtree", "lattpy/spatial.py:KDTree.query"]}
{"id": "C117", "title": "Spectrum of periodic graphene", "statement": "build() of a graphene or honeycomb lattice on a primitive block of N1 by N2 cells (at least three along each axis, bond length at least 1.4), periodic along both axes, succeeds, and the matrix build_csr of its data map with the real value eps on all sites and t on all links is a square matrix of 2 N1 N2 rows. Its real eigenvalues are exactly the numbers eps + e with e^2 = t^2 (3 + 2 cos k1 + 2 cos k2 + 2 cos(k1 - k2)) for angles k1 and k2 with N1 k1 and N2 k2 multiples of 2 pi. If t is not zero, eps is an eigenvalue exactly if N1 and N2 are multiples of three. For hexagonal lattices with one atom the matrix has N1 N2 rows and exactly the eigenvalues eps + 2 t (cos k1 + cos k2 + cos(k1 - k2)). An eigenvalue is a number with an eigenvector that is not zero.", "quantifier": "all block sizes, bond lengths, sizes given for the block, norms close to the lattice constant, values eps and t, and fitting angles", "why_tests_cant": "block sizes and real parameters are unbounded; a link lost or doubled at a border changes the matrix only for some sizes", "anchors": ["lattpy/lattice.py:Lattice.build", "lattpy/data.py:DataMap.build_csr", "lattpy/structure.py:LatticeStructure"]}

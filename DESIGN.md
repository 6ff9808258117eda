# Formal model of lattpy: design

Source: `/repo/lattpy` at the pinned commit (read as text, neither run nor changed). Model and proofs: Coq 8.16.1 in
`/verif/rocq/theories`. Line numbers below and in the comments of the model refer to `/repo`.

## 1. Modelling decisions

* **Shape of the model.** Every modelled Python function is a total computable Gallina function, cited above its
  definition. Mutation returns a new value, exceptions are values (`option`, or `result` naming the exception), loops
  are structural recursion or folds, objects are records. A method that changes its object before it raises returns
  the changed object together with the exception (`build`, `set_periodic`, `analyze`, ...).
* **Numbers.** Coordinates and bases are exact rationals `Q`. Each finite IEEE double is a rational, so every input a
  user can pass is representable (including the doubles nearest to `sqrt(3)` or `pi`); rounding *inside* arithmetic
  operations is not modelled. Distances that the code rounds to six decimals are integers in units of 1e-6 (`dist`:
  `Fin z` or `Inf`), computed exactly from the squared distance (`round(sqrt(q)*10^6)`, half to even). Other square
  roots are only compared, which is done on squares.
* **Fixed width integers.** Where the code picks a numpy dtype (`min_dtype`, `np.indices(dtype=...)`,
  `create_lookup_table`'s `uint8`, `num_neighbors`' `int8`, `DataMap`'s `int8`, the `int8` adjacency matrix) the
  wrap-around is modelled, because that is where properties fail. Overflow of `int64` is not modelled.
* **Trigonometry** (rotations, `compute_vectors`, Fourier weights, hexagonal and oblique bases) is modelled over the
  standard library's real numbers, in `RealModel.v`, `PathScaleModel.v` and `HexModel.v`;
  `HoneycombModel.v` takes a rational near sqrt(3) instead, as the code takes the double `np.sqrt(3)`.
* **External code** appears as a function argument of the model with a stated specification (section 4).

## 2. Files (`rocq/theories`)

| kind | files | content |
|---|---|---|
| primitives | `Np.v`, `LinAlg.v` (facts: `NpFacts.v`, `LinFacts.v`) | numpy operations on lists, vectors and matrices over `Q` |
| model | `UtilsModel`, `AtomModel`, `BasisModel`, `SpatialModel`, `VoronoiModel`, `ShapeModel`, `StructureModel`, `DataModel`, `LatticeModel`, `IdentityModel`, `PathModel`, `PathScaleModel`, `PresetModel`, `RealModel`, `HexModel`, `MatrixModel`, `LinkModel`, `PlotModel`, `DispPlotModel`, `ShapePlotModel`, `ConstructModel`, `PathPlotModel`, `HoneycombModel`, `DrawModel`, `InterpModel`, `KdtreeModel` | the code, function by function; no proofs |
| specification | `SpecUtils`, `SpecAtom`, `SpecBasis`, `SpecSpatial`, `SpecData`, `SpecStructure`, `SpecBuild`, `SpecNeighbors`, `SpecLattice`, `SpecGrid`, `SpecSeam`, `SpecJoin`, `SpecTorus`, `SpecBlock`, `SpecFinite`, `SpecMatrix`, `SpecVoronoi`, `SpecBloch`, `SpecOrder`, `SpecLinks`, `SpecGraph`, `SpecCell`, `SpecPlot`, `SpecInterp` | the words the properties are stated in, independent of the model's helpers |
| lemmas | `*Facts`, `*Proofs`, `KDBrute`, `DataOps`, `DataAppend`, `DataInv`, `LatticeExamples` | |
| properties | `Prop*.v` | theorems `Cnn_...`, a concrete `Example` beside each, `Print Assumptions` at the end |

`KDBrute.v` defines a brute force nearest neighbour query and proves that it meets the specification of the tree, so
the hypotheses about external code can be met; all examples use it. `MANIFEST.json` maps properties to theorems.

## 3. What is modelled

| file | modelled | not modelled |
|---|---|---|
| `utils.py` | `min_dtype`, `chain`, `create_lookup_table`, `frmt_num`, `frmt_bytes`, `frmt_time`, exception classes (everything but the loggers) | loggers |
| `atom.py` | everything but `__copy__`/`id` aliases (`copy`, `dict`, items, attributes, `==`, hash, `repr`) | parameters that are neither text nor numbers |
| `basis.py` | constructor, `transform`, `itransform`, `translate`, `itranslate`, `is_reciprocal`, `reciprocal_vectors`, `reciprocal_lattice`, `cell_size`, `cell_volume` (1 to 3 dimensions), `get_neighbor_cells`, `get_cell_superindex`, `get_cell_index`, `wigner_seitz_cell`, `brillouin_zone`, all ready-made bases | `plot_basis`, `repr` |
| `spatial.py` | `distance(s)`, `interweave`, `vindices`, `cell_size`, `cell_volume`, `compute_vectors`, `vrange`, `KDTree.query`, `VoronoiTree`, `WignerSeitzCell`, rotations; points, lines and surfaces of `VoronoiTree.draw` (`DrawModel.v`) | axes, colours |
| `shape.py` | `Shape`, `Circle`, `Donut`, `ConvexHull` (given scipy's points and equations): limits and containment; corners, edges and surfaces of boxes; the lines and polygons of `plot` of boxes, hulls and rings | `Circle.plot` (matplotlib draws the circle itself); colours and widths; 3-D layout of matplotlib |
| `structure.py` | constructor with `atoms` and `cons`, atoms, connections, `analyze`, neighbours of the unit cell, Fourier weights, `get_base_atom_dict`, translation vectors, `build_indices`, `compute_neighbors`, `_filter_neighbors`, `check_points`, dictionaries, `==`, hash | files (pickle), `repr`; of `plot_cell`: axes, widths, legends, grids, margins |
| `data.py` | `DataMap` (elements, masks, CSR index arrays, `zeros`, `build_csr`, `build_bsr`), `LatticeData` with all operations | `nbytes`, `dtype` and the `shape` argument of `build_bsr`, texts |
| `lattice.py` | constructor with `shape` and `periodic`, builds, look-ups, limits, neighbour queries, periodic axes, `append`, `extend`, `repeat`, pairs and adjacency matrix, minimum distances, dangling filter, cells, volume, dictionaries, `==`, hash, `kdtree` (`KdtreeModel.v`; `eps` 0, no `boxsize`) | files (pickle), `repr`; of `plot`: axes, widths, legends, margins, text labels |
| `disptools.py` | `DispersionPath` without `draw`, `_scale_xaxis`; curves, strips, ticks, colours and errors of `plot_dispersion`, `plot_disp_dos`, `plot_bands` | figures, titles, grids, tick formats, lines of the Brillouin zone |
| `plotting.py` | `connection_color_array`; end points and colours of `draw_vectors`, `draw_sites`, `draw_unit_cell` as used by `plot` and `plot_cell` (`PlotModel.v`); `text`, `draw_indices`, and what `draw_points`, `draw_lines`, `draw_surfaces` get from `VoronoiTree.draw` (`DrawModel.v`); `interpolate_to_grid` (`InterpModel.v`) | the calls of matplotlib and all other drawing |
| `__init__.py` | the ready-made lattices | |

Simplifications common to all files: arrays are lists of rows, so empty tables carry no width; aliasing between
arrays is not modelled (where a method changes an argument in place and a caller can see it, the model returns the
changed argument, e.g. `append`, C45); site numbers, axes and numbers of distances are not negative unless a comment
says otherwise; floats are exact (above). Everything else is stated in the comment of the definition concerned.

## 4. Trusted base

* Coq 8.16.1's kernel (and `coqchk`'s), no flags switching off checks, no axioms of our own, no plugins.
* `Print Assumptions` says *Closed under the global context* for every theorem except those over the real numbers:
  all theorems of C20, C21, C66, C75, C86, C93, C104, C117, `C102_donut`, `C102_donut_position`, `C24_contains_by_distance` and `C81_close_lengths`, which depend on the standard library's
  `ClassicalDedekindReals.sig_forall_dec`, `ClassicalDedekindReals.sig_not_dec` and
  `FunctionalExtensionality.functional_extensionality_dep`.
* The reading of Python and numpy in the `*Model.v` files (this is what the citations are for).
* The contents of `scipy.sparse.csr_matrix((data, indices))` and `bsr_matrix((data, indices, indptr))` as their documentation
  defines them (`MatrixModel.v`).
* External code enters theorems as universally quantified arguments with these specifications:
  * `np.linalg.inv`: the result is an inverse (`valid_basis`; equation `inv m = b_inv` where a basis is remade);
  * `cKDTree.query`: `nearest_row` / `correct_tree` (the k nearest points within the bound, in order of distance);
  * `cKDTree.query_ball_tree`: `correct_ball` (exactly the points within the radius, in any order);
  * `scipy.spatial.KDTree.query` of one point: `finds_nearest` (some point of least distance; ties are open);
  * `scipy.spatial.Voronoi`: `is_diagram` (the vertices are the points with at least d+1 nearest points in general
    position; every vertex of a ridge is equally far from its two points); it raises for points in a hyperplane;
  * `scipy.interpolate.griddata`: `interpolating` (method linear: a mean of sites on a circle without a site inside, the fill
    value outside the hull, without the tolerance of qhull; nearest: the value of a nearest site; cubic: nothing);
  * `scipy.spatial.ConvexHull`: `is_hull` (the half spaces of its equations meet in the convex hull of the points);
  * `np.argsort` of a row of distances: `dist_argsort_ok` (a permutation that sorts; ties in any order);
  * the lengths of lattice vectors (`norms`) in primitive builds: any rationals whose squares are the squared lengths;
  * `md5` and the printing of floats and arrays: arbitrary functions (no collisions where the text says so);
  * `pi`, `2*pi` in the rational parts: any positive rational.

## 5. Proof per property

| id | model | proof |
|---|---|---|
| C01, C02 | `create_lookup_table` with uint8 wrap, `min_dtype` | induction on the values; refutation by computation |
| C03-C05 | `chain`, `frmt_num`, exception classes | induction; case analysis |
| C06-C08 | `Atom` as record with association list parameters | induction over histories |
| C09, C10, C15 | basis in any dimension with an inverse | linear algebra on lists, floor lemmas |
| C11 | mixed radix loops over Z | induction over the shape |
| C12, C13, C18 | cross products and determinants in dimension 1-3 | ring and order reasoning |
| C14 | box enumeration, squared norms, sorting | membership lemmas; refutation by computation |
| C16, C17 | `np.indices` with wrap, stable sort; strided assignment | induction over dimensions |
| C19 | query wrapper over the specified tree query | sorting and filtering lemmas |
| C20, C21, C66, C75 | real numbers | trigonometric identities, integer quadratic forms |
| C22-C24, C30 | shapes (distances compared as squares) | order reasoning |
| C25-C27, C37, C38 | `LatticeStructure` as state machine | invariants over histories; unique decoding of the printed text |
| C28, C29, C36, C67, C70 | `_compute_base_neighbors`, `analyze`, `get_neighbors` | membership and symmetry lemmas |
| C31-C35 | `build_translation_vectors`, `build_indices`, `_filter_neighbors`, `compute_neighbors` | linear bounds, alignment lemmas |
| C39-C52, C68 | `LatticeData`, `DataMap` | invariants over histories (C51), refinement to the relation "j at distance index k of i" |
| C53-C62, C76 | `Lattice` methods | composition of the above |
| C63-C65, C69 | paths, times, colours | induction |
| C71 | `build` after `analyze` | C28 + C34 + C39 composed: stored neighbours are the configured pairs |
| C72 | hypercubic lattices | the guards of C71 hold for grids; neighbours are unit steps |
| C73, C74 | ready-made lattices | computation of the constructor for any parameters; parity of coordinates |
| C77 | `append`: ball query, search of the recorded distance, insertion in both rows | refinement of the data operations to links |
| C78 | appending and repeating pieces of a grid | C77 with the distances of a grid; induction over the copies |
| C79 | `extend` | reduction to `append`, then C78 and the counting of C62/C72 |
| C80 | text, hash, equality, dictionaries of built lattices | unique decoding; C37 |
| C81 | `WignerSeitzCell` over a specified diagram and nearest point query | inner products; parallelogram of shortest cells |
| C82 | `vrange` and its argument forms | ceilings; stability of the sort; order of products |
| C83 | `ConvexHull.contains`, `limits` | over specified equations; Cauchy-Schwarz for the tolerance |
| C84 | corners, edges, surfaces of boxes | induction over the axes; case analysis for the literal tables |
| C85 | `set_periodic` on hypercubic boxes, `finite_hypercubic(periodic=...)` | C58 and C46 on the data of C78; arithmetic modulo the box |
| C86 | `DispersionPath.distances`, `scales` | real numbers; triangle inequality by induction over the dimension |
| C87 | `get_base_atom_dict` | induction over the atoms from the right |
| C88 | `get_index_limits`, `get_cell_limits`, `get_translation_limits` | column ranges, applied to boxes of cells |
| C89 | `set_periodic` called repeatedly | loop invariant: periodic entries only in slots free before; `remove_periodic` inverts the loop exactly |
| C90 | `build(..., periodic=axes)` and `set_periodic` on blocks of cells of any lattice | C71 for the block, C58 and C46 for the images; a bond shorter than half of the block determines its image |
| C91 | `Lattice.neighbors` of built lattices against `LatticeStructure.get_neighbors` | C71 for the sites, C29 for the infinite lattice; positions of two sites differ by their cell difference |
| C92 | `DataMap.zeros`, `build_csr`, `build_bsr`, masked assignment, the loop of the README | elements of the map (C48) with the value of their label; sums of permuted lists; blocks through C49 |
| C93 | `fourier_weights` and the matrices of `build_csr` for lattices with all axes periodic | C92 row by row; slots and bonds of a torus (C90) are in bijection; phases of whole blocks vanish; distances of the lattice are those of the structure (C29, C67) |
| C94 | order of `vindices` and of the tables of `build_indices`; boxes and circles moved by a lattice vector | the product of increasing ranges is in dictionary order, stable sorting keeps ties; strictly ordered lists are determined by their elements; C33 for both shapes; C71 for both builds, guards carried over by the move |
| C95 | `nearest_neighbors`, `iter_neighbors`, `compute_connections`, `dmap` of the lattice | C40/C41 with the first distance value; set keeps only values of entries (sorted without repetition); specification of the ball query and C37's query radius |
| C96 | distance numbers of `Structure.get_neighbors` and of `LatticeData` | distance values = distances of entries (C30/C38 `set`), C91's sites of a number, positions of one value in two increasing lists |
| C97 | histories of `LatticeData` operations as a graph | refinement: abstraction `graph_of`, one simulation lemma per operation from C39/C41-C46, congruence of graph operations under reordering of connections, induction over (tree-shaped) histories |
| C98 | what `Lattice.plot` draws | rows of the tables as slots (C38), lines collected site by site; for periodic boxes the torus data of C85, image cell = cell of the neighbour minus its vector |
| C99 | unit cell: `draw_unit_cell`, `plot_cell` | case analysis over one to three vectors and the corners; neighbours by C29, distinct points by a lemma on sorting by a preorder |
| C100 | `plot_dispersion`, `plot_disp_dos`, `subplots` | axis by C69, induction over the bands; colours as a relation |
| C101 | `plot_bands` | pointwise over rows and columns; witness for the label |
| C102 | `Shape.plot`, `ConvexHull.plot`, `Donut.plot` | mixtures of corners (convexity) against inequalities; weights outside a face vanish; trigonometry over the reals |
| C103 | constructors with `atoms`, `cons`, `shape`, `periodic` | induction on the entries: the last one for a pair of atoms counts; with C27, C28 and C72 end to end |
| C104 | `DispersionPath.plot_dispersion` | C63, C69 and C86 together over the reals: steps on the axis against distances of the samples |
| C105 | analysis against the infinite lattice, ready-made lattices | C14 turned into a count of shorter lengths; strong induction over the distances: while fewer than k are found, none is missing; integer quadratic forms for fcc, bcc and rock salt; any number of distances (`PropForm.v`): the order of the values of the form and of the rounded distances agree on the first k, by induction over the value |
| C106 | built lattices with one atom and several distances | C105 (`PropForm.v`) for the distances analysed, C70 for the search radius, C71 for the links of the selected sites; the room between the k-th length and the search radius is a hypothesis, discharged for the cubic lattices by rational bounds of the roots (`PropFormBuilt.v`) |
| C107 | neighbours in hexagonal and honeycomb lattices | the square root of three is a rational parameter near it; the analysis compared with the infinite lattice as in C105, the two groups of neighbours told apart by their rounded distances (`PropHoneycomb.v`) |
| C108 | built honeycomb lattices | the distances of C107, the search radius of C70 (1.1 times the bond length, below the next distances) and the links of C71 (`PropHoneyBuilt.v`) |
| C109 | index labels of plots | digits read back by a separate function; rows of positions collected by induction (`DrawModel.v`, `PropDraw.v`) |
| C110 | `VoronoiTree.draw` | the difference of two squared distances is affine, so what holds at the corners of a ridge holds for their mixtures; exceptions by case analysis |
| C111 | periodic honeycomb lattices | the analysis of C108 and the periodic blocks of C90; that the selected sites are a block is a hypothesis, shown for a 3 x 3 block of graphene in the example (`PropHoneyTorus.v`) |
| C112 | one atom, a ring of nearest cells, built open and periodic | the analysis reaches the ring (C105), search radius 1.1 k meets only the ring, periodic blocks of C90; instances for the hexagonal, fcc and bcc lattices; that the selected sites are a block is a hypothesis (`PropRing.v`) |
| C113 | primitive blocks of hexagonal and honeycomb lattices, end to end | the corners bound the searched cells from both sides (C29), so no cell of the block is missed and none wraps in the integer type; then C111 and C112 without their block hypothesis; a >= 7/5 (`PropHexBlock.v`) |
| C114 | primitive blocks of face-centred and body-centred cubic lattices, end to end | as C113, with the cells of the block searched in three dimensions; then C112 without its block hypothesis; a >= 5/2, and a bound on the proportions for bcc (`PropCubicBlock.v`) |
| C115 | interpolation of site values to a grid | the grid from minima and maxima; weights of Delaunay triangles: affine functions are reproduced, and the empty circle gives the value at a site (`SpecInterp.v`, `PropInterp.v`) |
| C116 | the tree of the sites finds the neighbours | radius and count of the analysis (C34, C70); self query (C19) and C71 for the built lattice (`PropKdtree.v`) |
| C117 | the spectrum of periodic graphene and hexagonal lattices | links of the blocks (C113) into the product of C93; waves on cells modulo the block are eigenvectors; Fourier coefficients of any eigenvector give a wave (`FourierFacts.v`, `PropBands.v`) |

## 6. Findings

The following expectations (from names, documentation or symmetry) are false of the code; each is a theorem named
`..._refuted` (or is part of the theorem named), with the conditions under which the expectation does hold proved
beside it. Causes in brackets.

* C01 `create_lookup_table`: more than 256 distinct values decode wrongly [uint8 indices].
* C05 `str()` of `SiteOccupiedError` and `NoAtomsError` raises [no hint set].
* C06, C07 an atom parameter called `name` breaks `==`/hash; `Atom.dict()` lacks the weight.
* C13 `is_reciprocal` accepts sets that are not reciprocal [off-diagonal products ignored].
* C12 `reciprocal_lattice(min_negative)` passes its argument on as the tolerance.
* C14 neighbour cells of strongly skewed bases miss cells that are nearer than returned ones.
* C20 `rot(t, 0, 0)` is a rotation about z [z-rotation used for x]; `rotate2d` turns clockwise.
* C22 `cell_size` is too small along an axis on which all components are negative.
* C32 sites inside the box are missing for positions off the origin on skewed bases, vectors pointing backwards, and
  for wide boxes [int8 index range].
* C34, C35, C39 neighbours are dropped if more sites are in range than asked for; a neighbour table without padding
  loses all neighbours at the largest distance [the largest distance is taken for the padding].
* C36 numbers of neighbours from 128 are stored as negative numbers [int8].
* C40, C44, C45, C46 asking for the padding's distance index returns site number N; `add_neighbors` loses neighbours in
  full rows or with unknown distances; `append` keeps periodic neighbours as regular ones, loses all neighbours of full
  tables, changes its argument; `copy` drops periodic neighbours; `set_periodic` drops or overwrites neighbours in full
  or unsorted rows.
* C41, C52 `remove` with a site given twice relabels wrongly; after `remove` the periodic tables are stale.
* C48, C50 atoms from index 128 turn onsite into hopping elements; the cached map is not refreshed by any mutation.
* C54 the adjacency matrix is smaller than N x N if the last sites are isolated; distance index 127 becomes -128.
* C53 after a failed build the sites are gone while extents, position and periodic axes are the old ones.
* C56 `check_neighbors` misses neighbours at stored distances beyond the configured number.
* C57 in three dimensions images are missing from the minimum distances; old periodic axes survive a rebuild.
* C58 periodic neighbours: distances and vectors are paired with the wrong sites on a 2x4 square lattice; one of two
  images of a site that is its own neighbour is lost.
* C59 `repeat(side=-1)` puts all copies at the same place.
* C60 sites can have too few neighbours after the dangling filter ran.
* C62 primitive builds scale the size twice, so the number of sites depends on the lattice constant. The extent of shape
  objects is scaled too, so that sites in the shape are not searched [`C62_shape_refuted`]; `finite_hypercubic` is primitive by
  default.
* C63, C64, C69 the last tick is one past the end of the path; short points are spread over all coordinates; 3600 s is
  shown as 60 minutes; the axis of a dispersion plot has more positions than samples.
* C100, C101 an atom alone is not accepted as `color` of a dispersion plot, though lists of atoms are: `_color_list` takes
  anything with a length for the list. `DispersionPath.subplots` has its ticks at `i*n`, the plots at the sum of
  `(n-1)*scale`. `plot_bands` decides about the bars around the label by the number of rows of the table, so a single band
  is labelled as an absolute value.
* C99 `plot_cell` draws the first `num_distances` distances of every atom, where `num_distances` is the largest number of
  connections of a pair. An atom with more distances than that has neighbours that are not drawn. With three vectors the
  outline has 12 lines for 9 edges.
* C102 `Donut.plot` draws around the origin wherever the shape is [`C102_donut_position`]. `Shape.plot` in other than two
  and three dimensions fails with ValueError before its own NotImplementedError is reached.
* C103 constructors: an entry of `cons` with a name that no atom has is ignored without an error, also beside an index out
  of range [`C103_unknown_name`]; `periodic` without `shape` is ignored [`C103_shape`]; a number for `cons` without atoms
  raises AttributeError instead of NoAtomsError, pairs of indices TypeError [`C103_no_atoms`].
* C105 analysis: in the basis (1, 0), (10, 1) two of the four nearest neighbours are not found [`C105_missed_example`].
* C67 `include_zero` adds minus the atom position instead of zero.
* C75 the vectors of `hexagonal(a)` have length sqrt(3)*a although `a` is documented as their length; `hexagonal3d`
  also scales `az` by a/2.
* C77 at the seam of appended lattices: a distance rounded down loses links, full rows lose links in one or both
  directions, the connection matrix is ignored and the recorded distance can be wrong and asymmetric. The periodic axes
  of the lattice are kept although its periodic neighbours are removed.
* C78 the documentation of `repeat` shows an extent of 35 after `repeat(3)` on 12 columns; there are 48 columns.
* C79 `extend` puts the new rows at the wrong place for lattices away from the origin, misses rows for atoms off the
  lattice point and for primitive skew lattices, leaves a gap (right after left) or duplicates sites (left twice).
* C80 a built lattice equals the periodic one made from it and one with other weights, but not one built in the same
  way with its own atoms [the running index of the atom is printed]; unbuilt lattices cannot be compared or hashed;
  `fromdict(todict())` forgets extents and sites.
* C81 `wigner_seitz_cell` is made of the cells at a single distance: the bcc cell is an octahedron, rhombic cells are
  parallelograms, rectangular lattices raise, fcc Brillouin zones are wrong; `size` subtracts the wrong rows (zero for
  squares and cubes, IndexError in one dimension). Hypercubic and fcc cells are right.
* C86 the scales of a path that starts with the same point twice are not finite numbers.
* C87 `get_base_atom_dict` raises for one-dimensional lattices with the default argument; an atom parameter called
  `name` gives a KeyError.
* C89 the periodic axes are stale after a call of `set_periodic` that finds no periodic neighbours or fails; minimum
  distances go around although no neighbour is periodic.
* C90 periodic blocks in three dimensions lack neighbours whose bond goes opposite ways along two axes of which none is
  the first (3 x 3 x 3 primitive fcc block: 11 neighbours instead of 12) [translations are negated from the second
  component on].
* C91 a finite lattice may have neighbours that `get_neighbors` of the structure lacks [the cells searched by `analyze` miss
  near cells of strongly skewed bases]: (1, 0), (4, 1) with sites (-4, 1) and (0, 0).
* C92 `nearest_neighbors` of a lattice without any neighbours (one site) returns the padding, a site that does not exist, and the
  loop of the README fails with an IndexError [`C92_single_site_refuted`]; `onsite(-1)` selects neighbours and `hopping(-1)` atoms
  [`C92_negative_refuted`].
* C94 a box moved by a lattice vector can find fewer sites on skewed bases [corners probed with zeros instead of the position,
  cf. C32]; sites are not in dictionary order for ranges longer than half of the integer type.
* C59 `repeat` of periodic lattices: the first `append` removes the periodic neighbours from the array that is appended again, not from
  the copied distances, so that later copies have neighbours that do not exist; rings lose all neighbours (rows without padding).
* C96 The distance number of `neighbors`/`nearest_neighbors` of a built lattice counts the distances occurring anywhere in the lattice, that of the
  structure's `get_neighbors` the distances of one atom. They differ if a distance was not built (a row of a rectangular lattice) or if atoms have
  different bond lengths (`C96_row_refuted`, `C96_atoms_refuted`).
* C95 `nearest_neighbors` of a site is empty if its closest neighbour lies further away than the smallest distance of the lattice,
  and may be empty for every site after `remove` [it asks for the first known distance]; `compute_connections` ignores the connections
  of the atoms and pairs sites with themselves.
* C107 a site of the honeycomb lattice (and of graphene) may have two neighbours instead of three: the distances a and a sqrt(1+q^2)/2, equal
  only if q is the square root of three, are rounded to six places separately (`C107_three_refuted`, a = 131/128, exact as a double; the
  model computes with the exact value of the double nearest to sqrt(3) and without further rounding errors).
* C109 `Lattice.plot(show_indices=True)` of a chain raises ValueError with numpy 1.24 and later: `[pos, 0]` holds an array and a number.
* C110 `VoronoiTree.draw` raises IndexError if no ridge is finite (`C110_triangle_refuted`: three points of the plane) and, with numpy 1.24
  and later, ValueError if the faces have different numbers of corners (`C110_ragged`; the cell of the bcc lattice has squares and hexagons).
* C113 primitive builds of graphene in nanometres (a = 0.142) lose most cells: 3 by 3 requested cells give two
  [`C113_small_constant_refuted`]; the sites of the requested parallelogram are complete for a >= 7/5.
  The cubic lattices behave alike: 3 by 3 by 3 cells of aluminium in nanometres give one cell, and a rod of 1 by 10 by 1 cells
  of iron (a = 2.87) loses two cells [`C114_small_constant_refuted`]; fcc blocks are complete for a >= 5/2, bcc blocks under the
  bound `bcc_request` on their proportions as well.

Seen while reading, not stated as theorems: `site_mask` returns integers, so its result selects rows 0 and 1 if used as an
index; periodic axes with more entries than the dimension, which
no call produces, are cut off by the model's `put_axes` where numpy raises; `fromdict` shares the arrays of the dictionary; `check_points(relative=True)`
with integer sizes raises because of an in-place addition of floats; `LatticeBasis.oblique` takes radians while
`compute_vectors` takes degrees.

## 7. Testing the model and the theorems

`RepoTests.v` evaluates the model on the inputs of the project's own tests (`lattpy/tests`) and docstrings and compares
with the results stated there (the code itself is not run). All agree, with these exceptions on the side of the
expectations: lists in `test_periodic_nearest` and `test_periodic_next_nearest` that pass only because the helper compares
numbers of elements; the docstrings of `repeat` (35 instead of 47), `neighbor_pairs` and `adjacency_matrix` (four
sites for a chain of length 5). Tests with random inputs are covered by the theorems; Wigner-Seitz cells and
rotations by the examples of C81 and C20.


`seeded/LOG.jsonl` records wrong programs (edits of the model in a scratch copy). `proofs_failed` and `examples_failed`
are the proofs that were seen to fail. `theorems_failed` lists the property theorems among them. `theorems_blocked` lists
theorems whose proofs use a failed lemma according to the text of the files; they were not checked any further, because
most runs stop at the first failing proof. This list was computed from a later text than the one that was run, so it can
name theorems that did not exist yet at the time of the edit. A failing lemma does not show that a theorem rejects the edit: its proof script
may break although its statement still holds. In about 700 of the entries only an auxiliary lemma was seen to fail, so
these are weaker evidence than the others. Earlier versions of the log counted blocked theorems as failed. Such
entries are being run again (`retest`): the failed lemmas are skipped in the scratch copy and the build goes on, and the
theorems and examples that then fail themselves are listed; a theorem that passes after a skipped lemma shows nothing. If no theorem
failed though the claim was false, the theorem that was tightened afterwards is named. `PropEdges.v` has examples on
which such edits give another result.

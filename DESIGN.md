# Formal model of PyRayT in Rocq (Coq 8.16.1)

The code under study is `/repo` (packages `pyrayt` and `tinygfx.g3d`).  The
model lives in `/verif/rocq/theories` (logical name `Verif`).

## 1. Approach

* **Numbers.**  Floats are modelled by exact reals extended with `+inf`, `-inf`
  and `nan` (type `xr` in `XR.v`), with numpy's rules for `0/0`, `x/0`,
  comparisons with `nan` and sort order (`nan` last).  Rounding is *not*
  modelled there; `Rounded.v` is a second model of the tracer in which every
  numerical step is an arbitrary function, so that what is proved about it (C93)
  holds for binary64 as well.  Tolerances written in the code (`isclose`, `1e-7`, `1e-6`) are kept
  literally.
* **Arrays.**  A batch of rays is an array whose last axis is the ray.  Every
  kernel is modelled per column, as a function of one ray; `Batch.v` models the
  array idioms that could mix columns (hstack / sort / reshape, boolean masks and
  scatter assignment) literally and proves that column j of the batch result is
  the per-ray result.  `BatchOps.v`, `BatchTracer.v` and `BatchSources.v` follow the
  rest of the array code (normals, reflect, refract, the materials, the states of the
  tracer, the sources), and C82 proves that it agrees with the per-ray model.
* **Objects.**  Mutable Python objects live in a heap (`World.v`): an id counter
  and a finite map from ids to object records; watchlists are lists of handler
  tokens; exceptions are values that carry the partially updated heap.
* **Geometry.**  A pure tree of placed primitives with cached bounding boxes is
  the view of a CSG object at one instant; the tree theorems are about it.
* **Sorting.**  `np.argsort` (quicksort) is not stable.  Theorems about code that
  uses it quantify over *every* permutation that sorts; an executable stable
  insertion sort is one instance.
* **Randomness** (`Lamp`) is an oracle argument, quantified over.
* **Refuted properties.**  Where the code violates a property, the violation is
  proved (`..._refuted`), and the strongest true restriction is proved with the
  suffix `_partial`.

## 2. Plan per property

| Property | Modelled by | How it is proved |
|---|---|---|
| C01, C02 | `array_csg` on lists, any comparison, any sorting permutation | induction on the merged, tagged list; parity of counts below t |
| C03 | per-ray `csg_intersect` with argsort permutations | the permutations are applied to zipped pairs; membership |
| C04 | placed-primitive tree | induction on the tree, C01 + C07..C10 + C06 + C14; "all but finitely many t" |
| C05 | same | refutation by two disjoint (and two touching) cuboids; `_partial`: boxes that properly overlap |
| C06 | boxes as spans + Cube kernel | box containment lemma + C08 |
| C07..C11 | per-ray kernels on `xr` | real algebra (nra/field), case analysis on the code's branches |
| C12 | kernels at direction zero | case analysis on `xr` arithmetic; induction on the tree |
| C13 | literal array idioms on lists of columns | list induction |
| C14, C15 | 4x4 matrices, adjugate inverse | matrix algebra |
| C16 | normal kernels | gradient / outward-step characterisation |
| C17 | heap construction of CSG nodes | tree induction; refuted for A-(B-C), `_partial` for at most one subtraction above a leaf |
| C18 | eight-corner min/max of placed cuboid | convexity |
| C19, C20 | heap watchlists | history induction; refuted for right-nested / grandchild moves |
| C21..C25 | heap operations | history induction, matrix algebra |
| C26 | `pin` enter/exit on the heap | refuted for pin(child, parent) and for parts moved on their own; proved for separated objects; for one pinned object exactly which parts are restored |
| C27 | id counter | history induction |
| C28..C31 | `reflect`, `refract` | vector algebra |
| C32, C33 | root finders | algebra; refutations inside the tolerance band / for a<0 |
| C34..C47 | tracer state machine over an abstract scene | induction on the number of interactions |
| C48..C51 | sources, lamp with oracle, LRU cache | trigonometry; cache invariants |
| C52..C59 | component factories as trees / heap programs | region equivalences |
| C57, C58, C60 | kernels + reflect/refract | algebra |
| C61..C63 | `utils`, `materials` | real analysis |
| C64..C66 | camera, renderers, Gooch shading | algebra, list induction |
| C67 | 2D shapes and `overlap` (`RaySet.v`) | case analysis |
| C68, C81 | the RaySet array, literally, as rows of numbers (`RaySet.v`) | refinement: `SpecRaySet.holds` relates the array to a list of rays, every operation preserves it |
| C82 | the tracer, materials and sources on RaySet arrays (`BatchOps.v`, `BatchTracer.v`, `BatchSources.v`) | simulation between the array tracer and the per-ray tracer, state by state, by induction on the number of states |
| C83 | tracer, world objects and sources (`SpecMotion.v` specifies moved rays, rows, surfaces, shapes) | equivariance of each operation (hits, normals, materials, boxes, sorting) under an isometry, lifted to runs by the histories of C72; programs by the frame lemmas of World; refutation for right nested unions |
| C84 | tracer and component factories (`SpecSymmetry.v` specifies which maps leave a primitive, a placed surface and a shape as they are) | C83's equivariance with the same scene on both sides; the factories by an invariant over the tracked program: every leaf is a primitive symmetric about its axis, shifted along it, and every box is centred on the axis |
| C85 | tracer | each history of C72 is a history of the smaller scene, by induction on it: the nearest hit is not on a removed component; then frames with the same rows for each ray are equal |
| C86 | tracer | the history with the smaller limit is the cut history, by induction on it |
| C87 | components, tracer, utils | the height, slope and direction of a ray after each face as limits for a pencil of rays; the tree of the lens gives one chord between its faces; history of three rows |
| C88 | `draw` and `RayTracer.show` (`Show.v`): what the axes receive is an image with an extent, and a list of arrows | `show` unfolded on a traced tracer; which scenes get a picture by the pixel counts of the camera |
| C89 | the colour column of `show`, `wavelength_to_rgb` | the colour map is injective on visible wavelengths (strictly monotone channels per zone); the source loop picks by the ray's number; recoloured after `set_rays_per_source` refuted |
| C90 | `draw` without bounds | the corners are those of the smallest box; boxes contain their components (C04); refuted for a disjoint union |
| C91 | both renderer classes as state machines (`Renderers.v`) | induction over the history of calls: kind, shapes and table never change; the table stays current in every later heap |
| C92 | components, materials, tracer | the tree of the mirror gives the far chord end on the sphere as first hit; algebra of the reflected line |
| C93 | the tracer with its arithmetic left open (`Rounded.v`): every numerical step is an arbitrary function of the arrays it is given | invariants of the loop over generations; simulation of the exact tracer by the instance `exact` |
| C94 | `reflect`, `refract`, `get_world_normals` and the normalisations with every operation rounded (`Fl.v`): relations, because sums are taken in any order; binary64 is Flocq's `round radix2 (FLT_exp (-1074) 53) ZnearestE` (no overflow) | error analysis of one interaction; induction over the interactions; invariant of the path of a ray in `Rounded.v` |
| C95 | the exact tracer over the exact solids (`Tracer.v`, `Csg.v`, `Surf.v`); "enters or leaves" is `crosses` in `SpecCrossing.v`, a statement about points only | a hit list that delimits a set (C04) has a change of the set at each of its simple entries and none between them; then the nearest entry over all components |
| C96 | the prism factory (`Components.v`) in the exact tracer; faces, passage and angles in `SpecPrism.v` | the two cut faces' normals from the heap placements, Snell's law at each (C74) as a dot product with the face's tangents, then least deviation from the concavity of the sum of the two sines (`PrismLaw.v`); colours from normal dispersion (C63); the order on a screen from the two paths in the plane of the triangles (`PrismSpectrum.v`) |
| C97 | the tracer's index column over CSG trees of placed surfaces; the medium at a point in `SpecMedium.v` | the world normal parts inside from outside near a smooth point (`NormalSides.v`, `MediumFacts.v`), so the sign test of the refraction tells entering from leaving; then induction over the rows, carrying the medium along each leg with C94 (`MediumProps.v`); a pair of touching blocks for the refutation |
| C98 | two traces of the exact tracer over the same components; the way back in `SpecReverse.v` | each leg backwards: nothing on it (C95 forward, and the skipped stretch), the surface it came from at its end because the normal parts inside from outside (`ReverseFacts.v`); each turn backwards by Snell's law with the indices of C97; induction over the rows from the last (`ReverseProps.v`) |
| C99 | `Sphere.intersect`, the side in `Cylinder.intersect`, the curve in `Paraboloid.intersect`, the flat faces and the move of the ray with every operation rounded (`FlHits.v`), one entry of the arrays at a time | backward error of the quadratic formula: a computed root solves a nearby quadratic (`FlHitsRoot.v`), whose coefficients are near those of the exact images (`FlHitsProps.v`, `FlHitsOn.v`, `FlHitsBowl.v`); for rays along the axis of a paraboloid (`FlBowl.v`) the linear formula (`FlBowlLine.v`) |
| C100 | the same functions | the sign of the rounded discriminant and of the rounded numerators away from zero (`FlHitsSure.v`, `FlHitsSure2.v`, `FlBowlSure.v`) |
| C101 | the exact tracer over scenes that hold a mirror from `Components.v` moved by an isometry (`SpecMirrors.v`) | the normal of the reflecting part, carried along by the isometry, in the law of reflection between consecutive rows (`MirrorTrace.v`); traces of single rays inside an absorbing sphere as examples (`MirrorScene.v`, `MirrorExamples.v`) |
| C102 | `World.v` programs and `Surf.v` intersection with whatever boxes are stored (`SpecSeen.v`) | every stored box is an interval or empty along each axis, an invariant of all calls (`SeenWorld.v`); a ray is let through exactly if it passes through such a box; then induction over the tree (`SeenFacts.v`) |
| C103 | `Prim.v`, `Surf.v`, `World.v` programs and the lens factories (`SpecBand.v`) | replacing a direction by its straightened form changes none of the tests (`BandFacts.v`); each primitive is then described for all rays (`BandProps.v`) and trees by induction (`BandTree.v`); an operand that reports nothing empties an intersection (`BandLens.v`) |
| C104 | `Quat.v`: `get_quaternion` with the matrix-to-quaternion conversion of scipy 1.6.3 (`SpecQuat.v`: Hamilton's product and q v q*) | 4 q q^T is linear in the matrix, the conversion picks one of its columns (`QuatFacts.v`); products of matrices go with products of quaternions, by induction over programs (`QuatProps.v`); evenly scaled objects exactly (`SpecQuatScaled.v`, `QuatScaled.v`, `QuatScaledHist.v`) |
| C105 | `Session.v`: programs with several tracers, lists, iterators and frames as numbered objects (`SpecSession.v`: readings) | one invariant over all statements: frames are only appended, tracers keep their references (`SessionFacts.v`, `SessionProps.v`); for lists a simulation with `Tracer.v`; for iterators the exhausted collection stays so |
| C106 | the same relations as C94 (`Fl.v`); the laws with an error in `SpecFlOptics.v` | forward error bounds of every intermediate vector (`FlOptics.v`): the tangential component does not depend on the square root, so nothing is amplified next to the critical angle; total reflection by the sign of the rounded radicand |
| C107 | `SpecTrain.v`: the train, its matrices as an inductive relation; the factory programs of `Components.v` with a final move | lenses placed anywhere (`LensAxis.v`, `LensAxis2.v`, and `LensKinds.v` for the convex factories), one surface at a time with all other components out of the way (`TrainFacts.v`), induction over the lenses with a height/slope limit as invariant (`TrainProps.v`); a scene with two lenses in `TrainExamples.v` |
| C108 | the heap of `World.v`; `SpecApart.v`: what a call is given and makes, programs that keep two sets apart | invariant: children and handlers of an object lie on its side (`FrameFacts.v`), preserved by every call, raising or not; so a call writes on one side only (`FrameProps.v`) |
| C109 | the heap of `World.v`; `SpecMoved.v`: the tree before and after, the number of movements needed | induction over the tree of parts with the handlers in their order (`MovedFacts.v`), over the way down to the part, and over idle movements (`MovedProps.v`) |
| C110 | `SpecTrain.v`, the factory programs of `Components.v` | a chord through two balls and an aperture, ties at the vertex included (`LensKinds.v`), then C107; a scene with both lenses in `TrainExamples2.v` |
| C111 | SpecPixels.v states the rule from the two columns a component answers with; the model is Render.v's render_hit and the two draw views | each step of the renderer's loop is 'replace if the offer is less'; sortedness of the columns gives the offer of a component behind; induction on the list of components |
| C112 | FlStep.v is the rounded step, FlBowl.v the missed paraboloid and the ray along its axis; hits, moves and changes of coordinates are those of FlHits.v | the computed hit is near the surface (C99); one row of the matrix at a time, the stepped point is within 64 roundings of the exact one; the sides of spheres, cylinders (C100) and paraboloids then decide the hits; Flocq's midpoints for the lost step |
| C113 | Refs.v repeats the objects with addresses into a memory of arrays; SpecRefs.v runs the same programs on World.v with values | a simulation between the two: the library never writes in place, private addresses are never held, a held matrix is held once |
| C114 | GlassCache.v: glasses with assignable coefficients and the least recently used cache | the uncached run is the specification; invariants of the cache: every entry was right once, the entries before a glass are the others returned since |
| C115 | the lens factories, glasses and the tracer as for C63 and C87; SpecChroma.v | the Gaussian height on the screen is strictly monotone in the index; catalogue glasses have normal dispersion; transport of a ray's history along equal indices |
| C116 | the lens factories and the tracer as for C107; SpecFocus.v | the induction over the train of C107 carries the direction along; continuity of quotients; algebra of the matrices |
| C117 | FlWorld.v: the matrices, their products and the handler with every operation rounded; SpecFlWorld.v | induction over the history on the distance of the rounded matrix from the exact one, column by column; Flocq's binary64 for the instance |
| C118 | Shapes.v: the constructor calls with their defaults, the readers; SpecShapes.v | case analysis on the call, reduction to C07 to C11; the exact difference by comparing the clipped hits; the kind of an object never changes (induction over programs) |
| C119 | FlWorld.v, FlHits.v and FlBowl.v together; SpecFlSeen.v says what is assumed of the inverse, SpecFlMetBowl.v what a moved paraboloid is | the drift of C117 and the hits of C99, joined by how far the exact placement takes computed object coordinates from the world point |
| C120 | the trace model (Tracer.v); SpecImages.v defines planes, images and the length of a way | induction over the chain of rows, from the laws of single rows (C36, C74); linear algebra for two and three mirrors; planes from the placed normal and the hit equation |
| C121 | draw and the shaded renderer (Renderers.v, Render.v); SpecLight.v names the viewer's direction, the two tones and the place of the light | the pixel-exact description of pictures (C102, C104), the shading formula, and the sign of the dot product with the unit vector to the light; blocks for the refutations |
| C122 | the trace model (Tracer.v); SpecSkew.v defines moments, surfaces about an axis and along a direction, and the skewness of a row | the laws of single rows (C74) say that index times the tangential part of the direction is kept; linear algebra for the moment; induction over the rows; normals of the primitives under isometries; the lenses' parts from C107's analysis of the factories |
| C123 | Components.v (baffle, aperture), Csg.v, Prim.v (plane_hits), Tracer.v (propagate, material_trace); SpecStop.v defines stopped and left alone, and sorts that keep ties | the hits of plane and cutter as intervals (C01, C02); a stable sorting permutation is unique; the masks of the difference computed for each order of the four hits; all 24 orders for rays through the opening |
| C124 | Csg.v, Surf.v (shape_intersect, csg_box), Prim.v (plane_hits), Tracer.v (propagate); SpecSheet.v defines cut plates and the stretch before a crossing | the stable order of the plate's two equal hits among the sorted hits of a solid is unique and is computed for every number of hits; the running count of the operation is followed block by block; induction over the cuts; C04 says what the hits of a hole mean |
| C125 | Tracer.v (trace, propagate, interact), Surf.v; SpecShade.v says what it means for a list of rows to be cut short | the history relation of the tracer is followed with and without the components: the nearest hit is either one that is also there without them, or a hit on an absorber, after which nothing is recorded |
| C126 | Tracer.v, Mat.v, Prim.v (sphere_intersect, sphere_normal); SpecBall.v says what a ball is and what it is to turn a direction over another | Snell's law is solved for the direction after each crossing; the chord of a ball meets both ends at one angle; at the perfect point the similar triangles give the direction outside |
| C127 | Tracer.v, Mat.v, Prim.v (cylinder_hits, cylinder_normal); SpecRod.v says what a rod is, where a leg ends on it and when its side holds a ray | by induction over the rows: a reflection at the side keeps the axial part, a chord between two points of the side meets both at one angle; Snell's law at the end bounds the angle with the axis, hence the angle with the side |
| C128 | Tracer.v, Mat.v, Prim.v (cube_normal); SpecBlock.v says what a block is, where a leg ends on it, and which parts its direction has | by induction over the rows: a reflection changes the sign of one part, Snell's law at a face divides or multiplies the two others by the index; the parts of a unit vector decide which faces hold; straight through (PlateProps.v), the leg inside gives the shift |
| C129 | Attributes.v: the dictionary of an instance; methods as sequences of reads, assignments and steps outside, each of which an oracle may break off | a Hoare logic over what is known of the dictionary, with an invariant between calls and one for each state of the loop; for the two getters, the invariant that the name is never there |
| C130 | Interrupt.v: a movement as its list of assignments, cut after any of them; CutWalk.v: the walk over the parts of a composite, cut between any two | the last assignments of a finished movement depend on the world transform alone, and after the first assignment of a movement nothing changes that |
| C69, C70 | heap programs | measure on the object graph; matrix algebra |
| C71 | heap programs + trees | composes C19 with C04 |
| C72, C73, C74 | tracer state machine | simulation of the traced set by single rays; sortedness invariant; induction on interactions |
| C75 | lamp sampling | change of variables, area of spherical caps |
| C76 | component factories | refuted (documentation) |
| C77..C80 | renderers and `draw` | list induction over the pixels; camera algebra |

Nothing in the list is planned as inexpressible.  The status of each property,
the exact theorem names and what is missing from each partial one are in
`MANIFEST.json`.

## 3. Trusted base

* The Coq 8.16.1 kernel (and `coqchk`).
* Axioms, all from the standard library, none added:
  `ClassicalDedekindReals.sig_forall_dec`, `ClassicalDedekindReals.sig_not_dec`,
  `FunctionalExtensionality.functional_extensionality_dep` (these three come with
  `Reals`) and `Classical_Prop.classic` (used by some real-analysis lemmas).
  `ASSUMPTIONS.md` lists, theorem by theorem, exactly what `Print Assumptions`
  prints; each property theorem has a `Print Assumptions` line beneath it in its
  `Props_*.v` file.
* Only the standard library is imported, and Flocq (`Core`, `Relative`) in the files about rounding
  (C94, C99, C100); Flocq has no axioms of its own.
* The correspondence between the model files and the Python source, by reading.
  Every model definition cites the lines it models.
* The specification files (`Spec*.v`): small, free of model helpers, and what a
  reader has to agree with.

## 4. What is modelled

| Source file | Parts | Model file |
|---|---|---|
| `tinygfx/g3d/csg.py` | `Operation`, `array_csg`, `CSGSurface.intersect` | `Csg.v`, `Surf.v`; array form in `Batch.v` |
| | `CSGSurface.__init__`, `_update_bounding_box`, `invert_normals`, `reset_normals`, `surface_ids`, `_append_world_transform`, `union`, `intersect`, `difference` | `Surf.v`, `World.v` |
| `tinygfx/g3d/operations.py` | all five functions | `Ops.v`, `Lin.v`; array form in `Batch.v`, `BatchOps.v`; with rounded operations in `Fl.v` |
| `tinygfx/g3d/primitives.py` | coordinates and rays | `Lin.v` |
| | `intersect`, `normal`, bounding points and constructors of Sphere, Paraboloid, Plane, Cube, Cylinder | `Prim.v`; array form in `Batch.v`, `BatchOps.v`; `intersect` with rounded operations in `FlHits.v` |
| | `Disk`, `Rectangle`, `Cube.overlap` | `Prim.v`, `RaySet.v` |
| | `bundle_of_rays`, `bundle_rays` | `Sources.v`, `RaySet.v` |
| `tinygfx/g3d/world_objects.py` | `bounding_box`, `TracerSurface.intersect`, `get_world_normals` | `Surf.v`; array form in `Batch.v` |
| | `CountedObject`, `WorldObject` (all movements, handlers, getters; `get_quaternion` in `Quat.v`), `ObjectGroup`, `Intersectable`, `TracerSurface.__init__` | `World.v`; with shared arrays in `Refs.v`; movements broken off in `Interrupt.v` and `CutWalk.v` |
| | `shade`, `OrthographicCamera` | `Render.v` |
| | `Cuboid.from_sides` | `Components.v`; every constructor with its defaults, `from_length` and the readers in `Shapes.v` |
| `tinygfx/g3d/renderers.py` | the pictures of both renderers, `_draw_xy`, `_draw_xz` | `Render.v` |
| | the renderer objects; `draw` | `Renderers.v`; `Show.v` |
| | which attributes the methods read and assign, `EdgeRender.get_results` | `Attributes.v` (also for `RayTracer`) |
| `tinygfx/g3d/materials/*` | `RGBAColor`, `GoochMaterial` and the predefined ones | `Render.v` |
| `pyrayt/_pyrayt.py` | `RaySet` | `RaySet.v` (the array), `Tracer.v` (one record per ray) |
| | `_RayTraceDataframe`, `RayTracer` | `Tracer.v`, `show` in `Show.v`; array form in `BatchTracer.v`; with open arithmetic in `Rounded.v`; references shared with the caller in `Session.v` |
| | `pin` | `World.v` |
| `pyrayt/components.py` | lenses, mirrors, prism, baffle, aperture | `Components.v` |
| | sources, `Lamp`, `StaticLamp` | `Sources.v`; array form in `BatchSources.v` |
| `pyrayt/materials.py` | all materials' `trace`, `index_at`, `abbe`, the predefined glasses | `Tracer.v`, `Surf.v`, `Utils.v`; array form in `BatchTracer.v`; the cache of `abbe` and assignments in `GlassCache.v` |
| `pyrayt/utils.py` | both functions | `Utils.v` |

## 5. What is not modelled

* Floating point: rounding, overflow, underflow, signed zero.  Except in C93, C94, C99, C100, C106, C112, C117 and C119 arithmetic is exact;
  `1e-8`-style tolerances in the code are kept.  C119 assumes a residual of `np.linalg.inv`; a consequence of exactness: it
  raises exactly for determinant 0, and an exact tie or zero in the model may be
  off by an ulp in the program.
* The `float32` dtype that the results frame is created with (`_pyrayt.py:166`).
* What matplotlib makes of the image, the extent and the arrows that `show` gives it
  (`Show.v`); `plt.gca`, `plt.show`, labels, image files.
* pandas, beyond an ordered list of rows with the named columns.
* `__repr__`, docstrings, type annotations, warnings (`np.seterr`), logging.
* scipy's `Rotation`, beyond the conversion of a matrix in `Quat.v` (written from the
  algorithm of scipy 1.6.3, whose source is not in the repository).
* Outside C114, glasses are immutable values.
* Attribute assignment from outside the API (for example overwriting
  `_world_coordinate_transform`; the coefficients of a glass are modelled), subclassing, threads.
* Python's recursion limit on deep but finite nesting.
* Argument types other than the documented ones, except where a property is about
  them (C55, C61, C68).
* `scipy.ndimage.binary_dilation` is modelled by its definition (a pixel is set if a
  pixel of its 3x3 neighbourhood is set, iterated).
* The scripts in `examples/` and `docs/`, except that the bench of `examples/convex_collimator.py` is a worked example beside C116.

Where one model definition simplifies further, its comment says so.

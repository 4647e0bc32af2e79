{"id": "C01", "title": "array_csg computes the boolean combination of two interval sets", "statement": "For two sorted hit arrays of even length, a position t that is none of the hits lies between an odd/even pair of the array returned by array_csg exactly when it lies between an odd/even pair of the first array OR / AND / AND-NOT the second, for UNION / INTERSECT / DIFFERENCE.", "quantifier": "all pairs of sorted even-length hit arrays (any length, with +-inf padding and ties), all three operations, all t, every order in which the sort may leave ties", "why_tests_cant": "The arrays have unbounded length and arbitrary interleavings; tests fix one interleaving per operation.", "anchors": ["tinygfx/g3d/csg.py:array_csg"]}
{"id": "C02", "title": "array_csg output is sorted, of full length, and contains only input hits", "statement": "array_csg returns an array whose length is the sum of the input lengths, sorted ascending, whose finite entries are (with multiplicity) entries of the two inputs, and an even number of which are real hits; an unknown operation raises ValueError.", "quantifier": "all pairs of even-length sorted arrays, all operations", "why_tests_cant": "Universally quantified over array contents and lengths.", "anchors": ["tinygfx/g3d/csg.py:array_csg"]}
{"id": "C03", "title": "CSG intersect pairs every hit with the surface that produced it", "statement": "For every ray, every hit distance returned by CSGSurface.intersect below +inf together with the surface id in the same row is a (distance, id) pair that one of the two children returned for this ray; hits are sorted ascending; rays that miss the bounding box get inf and -1 in every row.", "quantifier": "all CSG trees, all rays, all tie orders of the sort", "why_tests_cant": "The alignment of three argsort permutations must hold for every interleaving of the children's hits.", "anchors": ["tinygfx/g3d/csg.py:CSGSurface.intersect"]}
{"id": "C04", "title": "CSG intersect reports exactly the boundary of the combined solid", "statement": "For a CSG object whose bounding boxes are up to date, a point of the ray at parameter t (for all but finitely many t) lies inside the combined solid exactly when an odd number of returned hits are below t.", "quantifier": "all CSG trees of any depth over spheres, cylinders, cuboids, paraboloids with any invertible affine placement; all rays that are not within numpy's isclose band of a degenerate direction; all t", "why_tests_cant": "Trees are unbounded and the set of rays is a continuum.", "anchors": ["tinygfx/g3d/csg.py:CSGSurface.intersect", "tinygfx/g3d/csg.py:CSGSurface._update_bounding_box", "tinygfx/g3d/primitives.py"]}
{"id": "C05", "title": "A union is hit wherever one of its parts is hit", "statement": "If a ray hits one of the two parts of union(a, b) at a point that is not inside the other part, the union reports that hit.", "quantifier": "all pairs of parts, whatever their relative position", "why_tests_cant": "Needs every relative placement of the two parts (including disjoint and touching ones).", "anchors": ["tinygfx/g3d/csg.py:union", "tinygfx/g3d/csg.py:CSGSurface._update_bounding_box"]}
{"id": "C06", "title": "Bounding box culling never drops an intersection or difference hit", "statement": "For INTERSECT and DIFFERENCE nodes, a ray that misses the node's bounding box meets the combined solid in at most one point.", "quantifier": "all INTERSECT/DIFFERENCE nodes with current children boxes containing the children, all rays", "why_tests_cant": "Universally quantified over boxes and rays.", "anchors": ["tinygfx/g3d/csg.py:CSGSurface.intersect", "tinygfx/g3d/primitives.py:Cube.intersect"]}
{"id": "C07", "title": "Sphere hits are exact", "statement": "Sphere.intersect returns, for every ray with non-zero direction, exactly the parameters t at which the ray is on the sphere, as an ordered pair around the chord (double at tangency), and (inf, inf) exactly when the line misses the sphere.", "quantifier": "all radii, all origins and non-zero directions", "why_tests_cant": "Continuum of inputs.", "anchors": ["tinygfx/g3d/primitives.py:Sphere.intersect"]}
{"id": "C08", "title": "Cuboid hits are exact", "statement": "Cube.intersect returns (t0, t1) with t0 < t1 such that the ray is in the closed box exactly for t0 <= t <= t1, and (inf, inf) only if the ray meets the box in at most one point.", "quantifier": "all corner pairs, all rays whose direction components are zero or larger than the isclose tolerance", "why_tests_cant": "Continuum of inputs and sign patterns.", "anchors": ["tinygfx/g3d/primitives.py:Cube.intersect"]}
{"id": "C09", "title": "Cylinder hits are exact", "statement": "Cylinder.intersect returns (t0, t1) such that the ray is in the closed capped cylinder exactly for t0 <= t <= t1, and (inf, inf) exactly if the ray never meets it.", "quantifier": "all radii, heights, origins and non-zero directions", "why_tests_cant": "Continuum of inputs; the failing band (rays within 1e-4 rad of the axis) is not sampled by tests.", "anchors": ["tinygfx/g3d/primitives.py:Cylinder.intersect", "tinygfx/g3d/operations.py:binomial_root"]}
{"id": "C10", "title": "Paraboloid hits are exact", "statement": "Paraboloid.intersect returns (t0, t1) such that the ray is in the solid x^2+y^2 <= 4 f z, 0 <= z <= h exactly for t0 <= t <= t1, and inf if the ray never meets it; non-positive focus or height is rejected.", "quantifier": "all foci, heights, origins and directions outside the isclose bands", "why_tests_cant": "Continuum of inputs.", "anchors": ["tinygfx/g3d/primitives.py:Paraboloid.intersect", "tinygfx/g3d/primitives.py:Paraboloid.__init__"]}
{"id": "C11", "title": "Plane hits are exact", "statement": "Plane.intersect returns the single parameter where the ray meets the rectangle (reported twice), and inf exactly if it does not meet it (or runs in the plane).", "quantifier": "all widths, lengths, origins, directions outside the isclose bands", "why_tests_cant": "Continuum of inputs.", "anchors": ["tinygfx/g3d/primitives.py:Plane.intersect"]}
{"id": "C12", "title": "Absorbed rays never hit anything again", "statement": "A ray whose direction vector is zero gets no positive finite hit from any primitive or any CSG object.", "quantifier": "all primitives, all CSG trees, all origins, all placements", "why_tests_cant": "Exercises 0/0 and inf arithmetic for every object.", "anchors": ["tinygfx/g3d/primitives.py", "tinygfx/g3d/csg.py", "pyrayt/_pyrayt.py:RayTracer._st_propagate"]}
{"id": "C13", "title": "Results do not depend on which rays are traced together", "statement": "Intersecting a batch of n rays gives in column j the result of intersecting ray j alone.", "quantifier": "all batches (any n, including 0), all primitives, all CSG trees", "why_tests_cant": "Array reshapes and boolean masks could mix columns for some n only.", "anchors": ["tinygfx/g3d/primitives.py:Plane.intersect", "tinygfx/g3d/primitives.py:Cylinder.intersect", "tinygfx/g3d/primitives.py:Paraboloid.intersect", "tinygfx/g3d/csg.py:CSGSurface.intersect"]}
{"id": "C14", "title": "World-space hits are the object-space hits of the placed object", "statement": "For every surface with an invertible placement, t is a hit of the world ray iff the world point origin + t*direction, taken to object space, is a hit point of the primitive; for unit directions t is the euclidean distance to it.", "quantifier": "all placements, rays and primitives", "why_tests_cant": "Continuum of placements.", "anchors": ["tinygfx/g3d/world_objects.py:TracerSurface.intersect"]}
{"id": "C15", "title": "World normals are unit and perpendicular to the placed surface", "statement": "get_world_normals returns unit vectors with w=0 that are perpendicular to every placed tangent vector of the surface and point to the same side as the placed local normal; inverted normals are exactly the negatives.", "quantifier": "all invertible affine placements (including non-uniform scaling), all points where the local normal is non-zero", "why_tests_cant": "Continuum of placements.", "anchors": ["tinygfx/g3d/world_objects.py:TracerSurface.get_world_normals"]}
{"id": "C16", "title": "Primitive normals are the outward unit normals", "statement": "normal() of each primitive returns a unit vector that is the outward normal at every surface point outside the isclose band around edges.", "quantifier": "all primitives, all surface points", "why_tests_cant": "Continuum of points.", "anchors": ["tinygfx/g3d/primitives.py:Sphere.normal", "tinygfx/g3d/primitives.py:Cylinder.normal", "tinygfx/g3d/primitives.py:Paraboloid.normal", "tinygfx/g3d/primitives.py:Plane.normal", "tinygfx/g3d/primitives.py:Cube.normal"]}
{"id": "C17", "title": "CSG normals point out of the combined solid", "statement": "In a CSG object a leaf's normals are inverted exactly when the leaf is subtracted an odd number of times.", "quantifier": "all CSG trees built with union/intersect/difference", "why_tests_cant": "Trees are unbounded.", "anchors": ["tinygfx/g3d/csg.py:CSGSurface.__init__", "tinygfx/g3d/csg.py:CSGSurface.invert_normals", "tinygfx/g3d/world_objects.py:Intersectable.invert_normals"]}
{"id": "C18", "title": "A surface's bounding volume always contains the surface", "statement": "After any sequence of successful moves, scalings, rotations and affine transforms, bounding_volume of a surface contains every point of its placed primitive, and each of its faces is touched by a placed corner.", "quantifier": "all primitives, all operation histories", "why_tests_cant": "Unbounded histories.", "anchors": ["tinygfx/g3d/world_objects.py:TracerSurface._boundary_box_update_fn", "tinygfx/g3d/world_objects.py:bounding_box"]}
{"id": "C19", "title": "Moving a CSG object keeps its bounding box current", "statement": "After any sequence of transforms applied to a CSG object, its bounding box (and those of all its CSG parts) equals the one computed from the children's current boxes.", "quantifier": "all CSG trees, all operation histories on the root", "why_tests_cant": "Unbounded trees and histories.", "anchors": ["tinygfx/g3d/csg.py:CSGSurface._append_world_transform", "tinygfx/g3d/world_objects.py:Intersectable.attach_to"]}
{"id": "C20", "title": "Moving a part of a CSG object updates every enclosing bounding box", "statement": "After transforming any object that is a (direct or indirect) part of a CSG object, the CSG object's bounding box equals the one computed from current positions.", "quantifier": "all CSG trees, all parts, all transforms", "why_tests_cant": "Unbounded depth; tests only move direct children.", "anchors": ["tinygfx/g3d/world_objects.py:Intersectable.attach_to", "tinygfx/g3d/world_objects.py:WorldObject._append_world_transform"]}
{"id": "C21", "title": "Object coordinates stay consistent under every history", "statement": "After any sequence of successful movement operations, to_object_coordinates inverts to_world_coordinates, get_object_transform is the inverse of get_world_transform, get_position is the placed origin and get_orientation is the placed unit z direction.", "quantifier": "all histories of move/scale/rotate/transform with any parameters", "why_tests_cant": "Unbounded histories.", "anchors": ["tinygfx/g3d/world_objects.py:WorldObject"]}
{"id": "C22", "title": "Transforms compose in the documented order", "statement": "A history of operations has the world transform given by multiplying the operation matrices on the left; moves add up and commute; rotations about one axis add their angles, preserve distances and are undone by the opposite angle; scale multiplies coordinates.", "quantifier": "all histories, all parameters", "why_tests_cant": "Continuum of parameters, unbounded histories.", "anchors": ["tinygfx/g3d/world_objects.py:WorldObject.move", "tinygfx/g3d/world_objects.py:WorldObject.scale", "tinygfx/g3d/world_objects.py:WorldObject.rotate_x", "tinygfx/g3d/world_objects.py:WorldObject.rotate_y", "tinygfx/g3d/world_objects.py:WorldObject.rotate_z", "tinygfx/g3d/world_objects.py:WorldObject.transform"]}
{"id": "C23", "title": "A movement operation that raises leaves the object unchanged", "statement": "If move/scale/rotate/transform raises, get_world_transform, get_object_transform, get_position and get_orientation return what they returned before.", "quantifier": "all objects, all operations and parameters that raise", "why_tests_cant": "All failing parameters, all prior states.", "anchors": ["tinygfx/g3d/world_objects.py:WorldObject.scale", "tinygfx/g3d/world_objects.py:WorldObject._append_world_transform", "tinygfx/g3d/world_objects.py:WorldObject._world_matrix_update_handler"]}
{"id": "C24", "title": "Transforming a group transforms every member once", "statement": "Transforming an ObjectGroup multiplies the group's and every member's world transform by the matrix, once per listing of the member, and touches no other object.", "quantifier": "all groups and members", "why_tests_cant": "Unbounded groups.", "anchors": ["tinygfx/g3d/world_objects.py:ObjectGroup._append_world_transform"]}
{"id": "C25", "title": "Transforming a CSG object moves every leaf exactly once", "statement": "Transforming a CSG object multiplies the world transform of the root and of every node below it by the matrix exactly once and touches no other object.", "quantifier": "all CSG trees", "why_tests_cant": "Unbounded trees; sharing between children.", "anchors": ["tinygfx/g3d/csg.py:CSGSurface._append_world_transform"]}
{"id": "C26", "title": "pin restores every pinned object", "statement": "On leaving a pin context every pinned object, and every part of a pinned CSG object, has the world transform it had on entry.", "quantifier": "all sets of pinned objects, all histories inside the context", "why_tests_cant": "Unbounded histories and aliasing between pinned objects.", "anchors": ["pyrayt/_pyrayt.py:pin"]}
{"id": "C27", "title": "Object ids are unique", "statement": "No two world objects (surfaces, CSG nodes, cameras, sources, groups) created in any order ever have the same id, and an id never changes.", "quantifier": "all creation histories", "why_tests_cant": "Unbounded histories.", "anchors": ["tinygfx/g3d/world_objects.py:CountedObject"]}
{"id": "C28", "title": "reflect obeys the law of reflection", "statement": "reflect(v, n) with unit n preserves length, negates the normal component, keeps the tangential component, is an involution, and gives the same result for the single-vector, single-normal and matrix call shapes.", "quantifier": "all vectors and unit normals, all call shapes", "why_tests_cant": "Continuum of inputs.", "anchors": ["tinygfx/g3d/operations.py:reflect"]}
{"id": "C29", "title": "refract obeys Snell's law", "statement": "For unit normals and positive indices, refract returns a unit vector in the plane of incidence with n1 sin(theta1) = n2 sin(theta2) on the transmitted side, using the world index when leaving the medium; the returned index is that of the medium entered.", "quantifier": "all non-zero vectors, unit normals, positive index pairs with radicand > 0", "why_tests_cant": "Continuum of inputs.", "anchors": ["tinygfx/g3d/operations.py:refract"]}
{"id": "C30", "title": "Total internal reflection", "statement": "When n1 sin(theta1) >= n2 the vector returned by refract is the mirror reflection, still unit, and the index is unchanged; it is never returned otherwise.", "quantifier": "all vectors, normals, index pairs", "why_tests_cant": "Continuum of inputs.", "anchors": ["tinygfx/g3d/operations.py:refract"]}
{"id": "C31", "title": "Refraction is reversible", "statement": "Sending the refracted ray back through the interface returns the original direction and index.", "quantifier": "all non-TIR vectors, normals and indices", "why_tests_cant": "Continuum of inputs.", "anchors": ["tinygfx/g3d/operations.py:refract"]}
{"id": "C32", "title": "binomial_root returns the roots of the polynomial", "statement": "binomial_root(a, b, c) returns the real roots of a x^2 + b x + c, +inf when there is none.", "quantifier": "all coefficients", "why_tests_cant": "Continuum of coefficients; the isclose band is not sampled.", "anchors": ["tinygfx/g3d/operations.py:binomial_root"]}
{"id": "C33", "title": "smallest_positive_root returns the smallest non-negative root", "statement": "smallest_positive_root(a,b,c) returns the smallest root >= 0, and inf if there is none, whenever a is not close to zero.", "quantifier": "all coefficients with a not close to zero", "why_tests_cant": "Continuum of coefficients and sign patterns.", "anchors": ["tinygfx/g3d/operations.py:smallest_positive_root"]}
{"id": "C34", "title": "trace terminates", "statement": "RayTracer.trace terminates after at most generation_limit interactions.", "quantifier": "all scenes, sources and generation limits", "why_tests_cant": "Non-termination can not be observed by a test; scenes are unbounded.", "anchors": ["pyrayt/_pyrayt.py:RayTracer.trace", "pyrayt/_pyrayt.py:RayTracer._st_interact"]}
{"id": "C35", "title": "The result frame is a set of well-formed ray histories", "statement": "In the frame returned by trace, generations of a ray id are 0..k without gaps or repeats, every generation is below the limit, every id is below rays_per_source*len(sources), and there are at most limit*rays_per_source*len(sources) rows.", "quantifier": "all scenes, all limits", "why_tests_cant": "Unbounded scenes and generations.", "anchors": ["pyrayt/_pyrayt.py:RayTracer._st_interact", "pyrayt/_pyrayt.py:_RayTraceDataframe.insert"]}
{"id": "C36", "title": "Segments are connected and straight", "statement": "Each row ends at its start plus a positive multiple of its unit tilt; the next row of the same ray starts ray_offset_value along its own direction from there.", "quantifier": "all scenes and rows", "why_tests_cant": "Unbounded scenes and generations.", "anchors": ["pyrayt/_pyrayt.py:RayTracer._st_interact", "pyrayt/_pyrayt.py:_RayTraceDataframe.insert"]}
{"id": "C37", "title": "Each row names the first surface the ray meets", "statement": "The surface of a row is the surface of the nearest positive hit over all components, the earliest component winning ties; rays with no positive hit produce no row.", "quantifier": "all component lists and rays", "why_tests_cant": "Unbounded component lists.", "anchors": ["pyrayt/_pyrayt.py:RayTracer._st_propagate"]}
{"id": "C38", "title": "The order of components does not matter", "statement": "Permuting the component list does not change the nearest distance, nor the surface if no two components are met at the same distance.", "quantifier": "all permutations of all component lists", "why_tests_cant": "All permutations.", "anchors": ["pyrayt/_pyrayt.py:RayTracer._st_propagate"]}
{"id": "C39", "title": "Rays below the intensity threshold are removed", "statement": "After each intersection any ray with intensity below ray_intensity_threshold is removed from the simulation.", "quantifier": "all rays and scenes", "why_tests_cant": "Needs all intensities; no test uses weak rays.", "anchors": ["pyrayt/_pyrayt.py:RayTracer._st_interact"]}
{"id": "C40", "title": "load_components makes trace use the new components", "statement": "After load_components(cs), trace gives the result of a tracer constructed with cs.", "quantifier": "all old and new component lists", "why_tests_cant": "All pairs of lists.", "anchors": ["pyrayt/_pyrayt.py:RayTracer.load_components"]}
{"id": "C41", "title": "Each intersection is applied once", "statement": "In each generation each live ray is advanced to its hit and interacts with the hit surface's material exactly once.", "quantifier": "all component lists, including lists sharing surfaces", "why_tests_cant": "Sharing patterns are unbounded.", "anchors": ["pyrayt/_pyrayt.py:RayTracer._st_interact", "pyrayt/_pyrayt.py:RayTracer.__init__"]}
{"id": "C42", "title": "Wavelength, intensity and id are carried unchanged", "statement": "All rows of a ray id have the wavelength and intensity the source gave that ray.", "quantifier": "all scenes made of the library materials", "why_tests_cant": "Unbounded generations.", "anchors": ["pyrayt/_pyrayt.py:RayTracer._st_interact", "pyrayt/materials.py"]}
{"id": "C43", "title": "Live rays have unit direction", "statement": "Every ray in a trace has a direction of length one or zero, and every recorded tilt is the unit direction of the segment.", "quantifier": "all scenes made of library materials and unit normals", "why_tests_cant": "Unbounded generations.", "anchors": ["pyrayt/_pyrayt.py", "pyrayt/materials.py", "tinygfx/g3d/operations.py"]}
{"id": "C44", "title": "Refractive index bookkeeping", "statement": "The index of a row is 1 for source rays, and after each interaction it is unchanged for mirrors, absorbers and TIR, the glass index at the ray's wavelength when entering, and the world index when leaving.", "quantifier": "all scenes", "why_tests_cant": "Unbounded generations.", "anchors": ["pyrayt/materials.py:Glass.trace", "tinygfx/g3d/operations.py:refract"]}
{"id": "C45", "title": "Absorbed rays are recorded once and then removed", "statement": "A ray that hits an absorber has that row recorded and no later row.", "quantifier": "all scenes with absorbers", "why_tests_cant": "Unbounded scenes.", "anchors": ["pyrayt/materials.py:_AbsorbingMaterial.trace", "pyrayt/_pyrayt.py:RayTracer._st_interact"]}
{"id": "C46", "title": "trace is repeatable", "statement": "Calling trace again (or after reset) on an unchanged scene with deterministic sources returns the same frame, whatever was traced before.", "quantifier": "all tracer histories", "why_tests_cant": "Unbounded histories.", "anchors": ["pyrayt/_pyrayt.py:RayTracer.trace", "pyrayt/_pyrayt.py:RayTracer.reset"]}
{"id": "C47", "title": "source_id is the index of the source that generated the ray", "statement": "After calculate_source_ids, source_id of a row is the index of the source whose ray it is.", "quantifier": "all numbers of sources, rays per source, rows", "why_tests_cant": "All sizes; integer/float division.", "anchors": ["pyrayt/_pyrayt.py:RayTracer.calculate_source_ids", "pyrayt/_pyrayt.py:RayTracer._st_initialize"]}
{"id": "C48", "title": "Sources emit the documented bundles", "statement": "LineOfRays: n rays evenly spaced over [-s/2, s/2] along +x; CircleOfRays: on the circle; ConeOfRays: at the cone angle; WedgeOfRays: evenly spaced angles in [-a/2, a/2]; all with n distinct rays, unit direction, the source's wavelength.", "quantifier": "all n, parameters", "why_tests_cant": "All n and parameters.", "anchors": ["pyrayt/components.py:LineOfRays", "pyrayt/components.py:CircleOfRays", "pyrayt/components.py:ConeOfRays", "pyrayt/components.py:WedgeOfRays"]}
{"id": "C49", "title": "Placed sources emit placed rays", "statement": "generate_rays of a source with world transform M emits the local rays mapped by M with unit directions.", "quantifier": "all invertible M, all local rays", "why_tests_cant": "Continuum of placements.", "anchors": ["pyrayt/components.py:Source.generate_rays"]}
{"id": "C50", "title": "Lamp rays stay within the lamp and cone", "statement": "Every Lamp ray starts inside the width x length rectangle, makes an angle of at most max_angle with +x, has unit direction and intensity 100*cos(angle).", "quantifier": "all random samples, n, sizes, angles up to 180", "why_tests_cant": "All random samples.", "anchors": ["pyrayt/components.py:Lamp", "pyrayt/components.py:_sphere_sample"]}
{"id": "C51", "title": "StaticLamp repeats its rays", "statement": "A StaticLamp returns the same rays for the same n on every call, and rays match its current placement.", "quantifier": "all call histories over any number of lamps", "why_tests_cant": "Unbounded histories; cache capacity.", "anchors": ["pyrayt/components.py:StaticLamp"]}
{"id": "C52", "title": "Components face the optical axis", "statement": "Lens and mirror factories orient the part so that local z maps to world +x, local x to world y and local y to world z, so an aperture (y1, z1) spans y1 along y and z1 along z.", "quantifier": "all components and apertures", "why_tests_cant": "All parameters.", "anchors": ["pyrayt/components.py:_lens", "pyrayt/components.py:_mirror", "pyrayt/components.py:baffle", "pyrayt/components.py:aperture"]}
{"id": "C53", "title": "thick_lens is the solid between its two surfaces", "statement": "A point is in thick_lens(r1, r2, t, aperture) exactly if it is in the aperture and between the two spherical (or planar) surfaces whose vertices are at -t/2 and t/2.", "quantifier": "all radii signs and infinities, thicknesses, apertures that fit the radii", "why_tests_cant": "Continuum of parameters and points.", "anchors": ["pyrayt/components.py:thick_lens", "pyrayt/components.py:_lens_full_thickness"]}
{"id": "C54", "title": "biconvex_lens has the requested thickness and radii", "statement": "The surfaces of biconvex_lens(r1, r2, t) meet the axis at -t/2 and t/2 with radii r1 and r2; negative radii are treated as positive.", "quantifier": "all radii and thicknesses", "why_tests_cant": "All parameter pairs; tests use r1 = r2.", "anchors": ["pyrayt/components.py:biconvex_lens", "pyrayt/components.py:plano_convex_lens"]}
{"id": "C55", "title": "Apertures of every documented form can be built", "statement": "x, (y1,z1) and (-y1,-z1) give a circular, rectangular and elliptical aperture; other sign combinations raise TypeError.", "quantifier": "all aperture arguments", "why_tests_cant": "All arguments; no test uses ellipses.", "anchors": ["pyrayt/components.py:_create_aperture", "pyrayt/components.py:baffle"]}
{"id": "C56", "title": "A mirror of zero thickness is a planar mirror", "statement": "plane_mirror(0, aperture) is hit by every ray crossing its aperture.", "quantifier": "all apertures and rays", "why_tests_cant": "Continuum of rays.", "anchors": ["pyrayt/components.py:plane_mirror", "tinygfx/g3d/primitives.py:Cube.intersect"]}
{"id": "C57", "title": "The parabolic mirror focuses", "statement": "A ray parallel to the x axis reflected by the parabolic surface of parabolic_mirror passes through the origin.", "quantifier": "all foci, all ray heights", "why_tests_cant": "Continuum of rays.", "anchors": ["pyrayt/components.py:parabolic_mirror", "tinygfx/g3d/primitives.py:Paraboloid.normal", "tinygfx/g3d/operations.py:reflect"]}
{"id": "C58", "title": "The spherical mirror's reflecting surface", "statement": "spherical_mirror(r) is the aperture minus the sphere of radius |r| with vertex at the origin; a ray through the centre of curvature is reflected back onto itself.", "quantifier": "all radii, off-axis shifts, rays", "why_tests_cant": "Continuum of rays.", "anchors": ["pyrayt/components.py:spherical_mirror"]}
{"id": "C59", "title": "equilateral_prism is an equilateral triangular prism", "statement": "The solid has as cross-section the equilateral triangle of the given side with base parallel to XY, centred by height on the origin.", "quantifier": "all side lengths and widths, all points", "why_tests_cant": "Continuum of points.", "anchors": ["pyrayt/components.py:equilateral_prism"]}
{"id": "C60", "title": "A plane-parallel plate does not change direction", "statement": "A ray entering and leaving a plane-parallel plate of any index through its faces leaves in its original direction.", "quantifier": "all rays and indices", "why_tests_cant": "Continuum of inputs.", "anchors": ["tinygfx/g3d/operations.py:refract", "pyrayt/materials.py:Glass.trace"]}
{"id": "C61", "title": "wavelength_to_rgb is a total, continuous colour map into [0,1]^3", "statement": "For every wavelength each colour channel is in [0,1]; every wavelength is covered by exactly one zone; values outside 0.38..0.75 equal the value at the limit; the map is continuous at zone borders.", "quantifier": "all real wavelengths, gamma > 0", "why_tests_cant": "Continuum; zone borders.", "anchors": ["pyrayt/utils.py:wavelength_to_rgb"]}
{"id": "C62", "title": "lensmakers_equation", "statement": "lensmakers_equation is unchanged when the lens is turned around (r1,r2 -> -r2,-r1), reduces to r/(n-1) for a plano lens independent of thickness, and satisfies the lensmaker's formula.", "quantifier": "all radii (including inf), n, thickness", "why_tests_cant": "Continuum.", "anchors": ["pyrayt/utils.py:lensmakers_equation"]}
{"id": "C63", "title": "Glass dispersion", "statement": "SellmeierRefractor.index_at satisfies the Sellmeier equation; the catalogue glasses have an index above 1 for every visible wavelength; BasicRefractor is constant; abbe is (n_d-1)/(n_F-n_C).", "quantifier": "all wavelengths in the stated range", "why_tests_cant": "Continuum of wavelengths.", "anchors": ["pyrayt/materials.py:SellmeierRefractor.index_at", "pyrayt/materials.py:BasicRefractor", "pyrayt/materials.py:Glass.abbe"]}
{"id": "C64", "title": "Camera rays cover the view", "statement": "OrthographicCamera.generate_rays returns h*v rays with origins on a regular grid covering h_width x v_width, all with the same unit direction, placed by the camera transform.", "quantifier": "all resolutions, spans, placements", "why_tests_cant": "All sizes.", "anchors": ["tinygfx/g3d/world_objects.py:OrthographicCamera"]}
{"id": "C65", "title": "Renderers draw only what is in front of the camera", "statement": "A renderer attributes to each pixel the nearest surface at positive distance, and none if there is none.", "quantifier": "all shapes and pixel rays", "why_tests_cant": "Continuum; all hit patterns.", "anchors": ["tinygfx/g3d/renderers.py:EdgeRender._st_propagate", "tinygfx/g3d/renderers.py:ShadedRenderer._st_propagate"]}
{"id": "C66", "title": "Gooch shading stays in the colour range", "statement": "GoochMaterial.shade of colours in [0,1] with unit normals gives pixel values in [0,1], opaque for opaque colours, interpolating between the cool and warm tone.", "quantifier": "all colours, normals, light and point positions", "why_tests_cant": "Continuum.", "anchors": ["tinygfx/g3d/materials/gooch.py:GoochMaterial.shade"]}
{"id": "C67", "title": "2D shapes and interval helper", "statement": "Disk.point_in_shape / Rectangle.point_in_shape decide membership of the closed disk/rectangle; from_diameter halves; overlap returns the elements of both arrays within the common range.", "quantifier": "all sizes and points", "why_tests_cant": "Continuum.", "anchors": ["tinygfx/g3d/primitives.py:Disk", "tinygfx/g3d/primitives.py:Rectangle", "tinygfx/g3d/primitives.py:overlap"]}
{"id": "C68", "title": "RaySet fields are independent views", "statement": "Setting one field of a RaySet changes that field for the rays set and leaves every other field and ray unchanged; a new RaySet has the documented defaults and ids 0..n-1.", "quantifier": "all sizes, fields, rows", "why_tests_cant": "All sizes.", "anchors": ["pyrayt/_pyrayt.py:RaySet"]}
{"id": "C69", "title": "Movement calls return", "statement": "Every construction, movement and normal-inversion call returns or raises an ordinary exception; it recurses without end only if the caller made a group contain itself.", "quantifier": "all programs of constructor and movement calls, all nesting depths", "why_tests_cant": "All histories and nestings.", "anchors": ["tinygfx/g3d/world_objects.py:WorldObject", "tinygfx/g3d/world_objects.py:ObjectGroup", "tinygfx/g3d/csg.py:CSGSurface"]}
{"id": "C70", "title": "Moves and rotations never raise", "statement": "move and rotate_x/y/z with valid units succeed on every object that was built and moved by successful calls with affine transforms.", "quantifier": "all objects, histories, displacements and angles", "why_tests_cant": "All histories; continuum of parameters.", "anchors": ["tinygfx/g3d/world_objects.py:WorldObject.move", "tinygfx/g3d/world_objects.py:WorldObject.rotate_x", "tinygfx/g3d/world_objects.py:WorldObject.rotate_y", "tinygfx/g3d/world_objects.py:WorldObject.rotate_z"]}
{"id": "C71", "title": "A built and moved CSG solid is seen where it is", "statement": "After building a CSG object and moving it, the hits reported for a ray delimit exactly the stretches of the ray inside the combined, moved solid.", "quantifier": "all programs that build and move CSG objects, all rays", "why_tests_cant": "Combines construction, movement, culling and hit merging.", "anchors": ["tinygfx/g3d/csg.py:CSGSurface", "tinygfx/g3d/world_objects.py:WorldObject.transform", "tinygfx/g3d/world_objects.py:TracerSurface.intersect"]}
{"id": "C72", "title": "Each ray is traced as if it were alone", "statement": "The rows recorded for a ray are the same, apart from the id, whatever other rays, sources or source order it is traced with.", "quantifier": "all scenes, all sets of rays, all positions in the set", "why_tests_cant": "The tracer works on whole arrays with masks and scatter; a leak between columns shows only for particular mixtures of rays.", "anchors": ["pyrayt/_pyrayt.py:RayTracer._st_propagate", "pyrayt/_pyrayt.py:RayTracer._st_interact"]}
{"id": "C73", "title": "The frame lists rows by generation, then by ray id", "statement": "In the frame returned by trace the rows are strictly increasing in (generation, id).", "quantifier": "all scenes and traces", "why_tests_cant": "Depends on how masks and concatenations preserve order in every generation.", "anchors": ["pyrayt/_pyrayt.py:_RayTraceDataframe.insert", "pyrayt/_pyrayt.py:RayTracer._st_interact"]}
{"id": "C74", "title": "Recorded interactions obey the optical laws", "statement": "For two consecutive rows of a ray, the second direction and index follow from the first by the law of reflection or by Snell's law at the named surface, with the surface's unit normal at the recorded end point; a last row is explained by the generation limit, an absorber, or a ray that meets nothing more.", "quantifier": "all scenes, sources, limits, rays", "why_tests_cant": "Quantifies over all geometries, materials and bounce sequences.", "anchors": ["pyrayt/_pyrayt.py:RayTracer.trace", "pyrayt/materials.py:Glass.trace", "pyrayt/materials.py:_ReflectingMaterial.trace"]}
{"id": "C75", "title": "Lamp directions are spread evenly over the cone's solid angle", "statement": "A Lamp ray lies within angle t of the axis exactly when its uniform random number is at most (1 - cos t)/(1 - cos max_angle), and its azimuth is 2 pi times another uniform number: directions are uniform over the spherical cap.", "quantifier": "all random samples, lamps, n, and angles t", "why_tests_cant": "A distribution over a continuum; sampling can only estimate it.", "anchors": ["pyrayt/components.py:Lamp", "pyrayt/components.py:_sphere_sample"]}
{"id": "C76", "title": "Components are placed where the documentation says", "statement": "plane_mirror(t) has its surfaces at x = -t and x = 0; equilateral_prism has its triangular faces parallel to the YZ plane.", "quantifier": "all thicknesses, apertures, side lengths", "why_tests_cant": "A claim about every parameter value.", "anchors": ["pyrayt/components.py:plane_mirror", "pyrayt/components.py:equilateral_prism"]}
{"id": "C77", "title": "EdgeRender draws exactly the outlines", "statement": "A pixel of EdgeRender's image is opaque black exactly when it lies within k pixels (horizontally and vertically) of a pixel whose surface differs from that of its left or upper neighbour (outside the image counts as nothing), where k is one per 300 pixels of the longer side but at least 1; every other pixel is transparent white.", "quantifier": "all scenes, cameras and resolutions", "why_tests_cant": "Quantifies over all images and pixel positions; border pixels and iterated dilation are easy to get wrong at one size only.", "anchors": ["tinygfx/g3d/renderers.py:EdgeRender._st_interact"]}
{"id": "C78", "title": "The xy drawing is the scene seen from above", "statement": "draw(view='xy') shows at each pixel the surface met first by the vertical line coming down through the pixel's cell of the axes.", "quantifier": "all scenes, bounds, resolutions, pixels", "why_tests_cant": "Continuum of scenes and positions.", "anchors": ["tinygfx/g3d/renderers.py:draw", "tinygfx/g3d/renderers.py:_draw_xy"]}
{"id": "C79", "title": "The xz drawing is the scene seen along +y", "statement": "draw(view='xz') shows at each pixel the surface met first by the line along +y through the pixel's cell of the axes.", "quantifier": "all scenes, bounds, resolutions, pixels", "why_tests_cant": "Continuum of scenes and positions.", "anchors": ["tinygfx/g3d/renderers.py:draw", "tinygfx/g3d/renderers.py:_draw_xz"]}
{"id": "C80", "title": "ShadedRenderer colours each pixel by its own ray", "statement": "Each pixel of ShadedRenderer's image is the shading, by the seen surface's material, of the point its ray sees, and fully transparent where it sees nothing; it does not depend on other pixels.", "quantifier": "all scenes with distinct surface ids, cameras, lights, pixels", "why_tests_cant": "The image is filled surface by surface through boolean masks and reshaped; an error shows only for particular sizes and mixtures.", "anchors": ["tinygfx/g3d/renderers.py:ShadedRenderer._st_interact", "tinygfx/g3d/world_objects.py:TracerSurface.shade"]}
{"id": "C81", "title": "Array operations on a RaySet act on the rays it holds", "statement": "A RaySet array holds a list of rays: creating a set, writing a field, stacking the sets of several sources and renumbering, selecting rays with a mask and writing rays back through a mask act on that list as expected, without mixing rays or fields.", "quantifier": "all sizes, fields, masks and numbers of sources", "why_tests_cant": "All sizes and masks.", "anchors": ["pyrayt/_pyrayt.py:RaySet", "pyrayt/_pyrayt.py:RayTracer._st_initialize", "pyrayt/_pyrayt.py:RayTracer._st_interact"]}
{"id": "C82", "title": "Tracing arrays of rays gives the result of tracing every ray by itself", "statement": "For every scene, every set of sources and every number of rays, the frame a trace leaves is, row for row and number for number, what following each ray of each source by itself leaves; the trace raises exactly when following the rays by themselves meets something that raises; the arrays the sources return hold the rays the sources are documented to emit.", "quantifier": "all scenes, sources, placements, ray counts, generation limits, argsort implementations", "why_tests_cant": "The array code mixes rays through masks, fancy indexing and in-place writes; agreement has to hold for every mixture of rays, hits, misses and materials.", "anchors": ["pyrayt/_pyrayt.py:RayTracer", "pyrayt/materials.py", "pyrayt/components.py:Source.generate_rays", "tinygfx/g3d/operations.py"]}
{"id": "C83", "title": "Moving the whole bench moves the results and nothing else", "statement": "If every component and every source is moved by the same rotation, reflection or translation, a trace gives the same rows as before, in the same order, with the start points, end points and tilts moved and the generation, intensity, wavelength, index, id and surface columns unchanged; it raises nothing new.", "quantifier": "all scenes, sources, ray counts, generation limits, and rigid motions", "why_tests_cant": "Relates two runs, for all scenes and all motions of a continuum.", "anchors": ["pyrayt/_pyrayt.py:RayTracer.trace", "tinygfx/g3d/world_objects.py:WorldObject.move", "tinygfx/g3d/world_objects.py:TracerSurface.intersect", "tinygfx/g3d/csg.py:CSGSurface.intersect"]}
{"id": "C84", "title": "Symmetric scenes give symmetric results; axis rays are not deviated", "statement": "If a reflection or rotation leaves every component as it is, then two source rays that it carries into each other leave rows that it carries into each other; a ray in the mirror plane stays in it, and a ray along the optical axis stays on the axis through any number of lenses and mirrors. The lens factories, and the mirror factories without off-axis shift, make components symmetric about the x axis, wherever on the axis they are put.", "quantifier": "all scenes, isometries, source rays, ray counts, generation limits; all lens and mirror parameters", "why_tests_cant": "Symmetry over a continuum of scenes, rays and parameters, through any number of interactions.", "anchors": ["pyrayt/_pyrayt.py:RayTracer.trace", "pyrayt/components.py:thick_lens", "pyrayt/components.py:biconvex_lens", "pyrayt/components.py:plano_convex_lens", "pyrayt/components.py:plane_mirror", "pyrayt/components.py:spherical_mirror", "pyrayt/components.py:parabolic_mirror"]}
{"id": "C85", "title": "Components that no row names can be taken away", "statement": "If no row of the results names a surface of certain components, then the same trace without those components gives exactly the same results.", "quantifier": "all scenes in which a trace succeeds, all sets of components, ray counts and generation limits", "why_tests_cant": "Every scene and every subset of its components.", "anchors": ["pyrayt/_pyrayt.py:RayTracer.trace", "pyrayt/_pyrayt.py:RayTracer._st_propagate"]}
{"id": "C86", "title": "A smaller generation limit cuts the results short and changes nothing else", "statement": "With a smaller positive generation limit and the same sources and components, the results are those rows of the original results whose generation is below the smaller limit, in the same order.", "quantifier": "all scenes in which a trace succeeds and all pairs of generation limits", "why_tests_cant": "Every scene and every pair of limits; each row after the cut depends on the rows before it.", "anchors": ["pyrayt/_pyrayt.py:RayTracer.trace", "pyrayt/_pyrayt.py:RayTracer.set_generation_limit", "pyrayt/_pyrayt.py:RayTracer._st_propagate"]}
{"id": "C87", "title": "Close to its axis a traced thick lens obeys Gaussian optics", "statement": "A ray that enters a thick lens of any sphere radii (or planes), index and thickness close to its axis crosses both faces and lands on a screen behind it. Its height there, as a multiple of the small height and slope it started with, tends to the value the ray transfer matrices of Gaussian optics give. In particular rays parallel to the axis meet at the focal point computed by lensmakers_equation, and rays from one point meet in its image, magnified by -(image distance)/(object distance).", "quantifier": "all radii, thicknesses, apertures, indices and screen positions, all planes through the axis, all starting heights and slopes in proportion to a small parameter, all tolerances", "why_tests_cant": "It is a statement about a limit: tests can only look at a few rays at a few heights, and cannot tell an aberration from an error.", "anchors": ["pyrayt/components.py:thick_lens", "pyrayt/_pyrayt.py:RayTracer.trace", "pyrayt/utils.py:lensmakers_equation"]}
{"id": "C88", "title": "show draws every leg of the results where it is", "statement": "After a trace, RayTracer.show draws one arrow per row of the results, in the order of the rows, from the projection of the leg's start to the projection of its end; before a trace or after a reset it draws no rays; it can be called for the xy and xz views of any scene whose pictured box has two positive sides, neither too short for one pixel, and raises otherwise.", "quantifier": "all traced scenes, sources, views, colourings, bounds and resolutions", "why_tests_cant": "All traced scenes and all frames; a test looks at a picture of one of them.", "anchors": ["pyrayt/_pyrayt.py:RayTracer.show", "tinygfx/g3d/renderers.py:draw"]}
{"id": "C89", "title": "show colours tell the wavelengths or the sources of the rays", "statement": "With color_function='wavelength' every leg has the colour of its wavelength and two visible wavelengths look alike only if they are equal; with 'source' the legs of one source share a colour that no other source has; otherwise all legs have one colour.", "quantifier": "all traced scenes, numbers of sources and rays, and all visible wavelengths", "why_tests_cant": "Quantifies over a continuum of wavelengths and over all numbers of sources and rays per source.", "anchors": ["pyrayt/_pyrayt.py:RayTracer.show", "pyrayt/utils.py:wavelength_to_rgb"]}
{"id": "C90", "title": "The picture frames the whole scene", "statement": "draw without bounds makes a picture centred on the smallest box around the bounding boxes of the surfaces and 1.5 times its size in both directions, so every point of every component is strictly inside the axes.", "quantifier": "all lists of components, views and resolutions", "why_tests_cant": "All scenes, and all points of the components.", "anchors": ["tinygfx/g3d/renderers.py:draw", "tinygfx/g3d/renderers.py:_draw_xy", "tinygfx/g3d/renderers.py:_draw_xz"]}
{"id": "C91", "title": "A renderer can be reused and draws the scene as it stands", "statement": "However an EdgeRender or ShadedRenderer has been used since it was made (renders that succeeded or raised, resets), and whatever was moved or built meanwhile, render finishes and returns the same picture as a new renderer for the scene and camera as they stand, or raises ValueError if the picture has no pixels.", "quantifier": "all scenes, cameras, histories of calls on the renderer and of calls that move or build objects", "why_tests_cant": "Quantifies over all histories of a stateful object that holds references to moving objects and a table made when it was constructed.", "anchors": ["tinygfx/g3d/renderers.py:EdgeRender.render", "tinygfx/g3d/renderers.py:ShadedRenderer.render", "tinygfx/g3d/renderers.py:EdgeRender.reset"]}
{"id": "C92", "title": "A spherical mirror focuses parallel rays near the documented focal point", "statement": "A ray that comes parallel to the axis onto the reflecting side of spherical_mirror(r) within its aperture, at a distance rho from the axis, is reflected at the sphere with vertex in the origin and crosses the axis at x = r - r|r|/(2k), k = sqrt(r^2 - rho^2), which is within rho^2/(2k) of the documented focal point (r/2, 0, 0).", "quantifier": "all radii of either sign, thicknesses, apertures, off-axis shifts and all rays parallel to the axis", "why_tests_cant": "A continuum of radii, apertures and rays.", "anchors": ["pyrayt/components.py:spherical_mirror"]}
{"id": "C93", "title": "The bookkeeping of a trace survives any rounding", "statement": "Whatever the floating point arithmetic does (rounding, overflow, underflow, nan, any order of summation): a trace with a positive generation limit ends after at most that many generations; the rows of every ray are its generations 0, 1, 2, ... without a gap and fewer than the limit; the frame is ordered by generation, then by id; every row names a surface, an id given out to a source ray, and that ray's wavelength and intensity; a smaller limit gives exactly the rows of the generations below it; the intensities influence no other column.  If the arithmetic treats every ray of an array by itself, the rows of each ray are those of tracing it alone, and a row that ends on an absorber is the last of its ray.", "quantifier": "all arithmetics (functions for every numerical step), tables of surfaces, limits, and lists of source rays", "why_tests_cant": "The claims are about every possible rounding of every input, not about one machine's results on some inputs.", "anchors": ["pyrayt/_pyrayt.py:RayTracer.trace", "pyrayt/_pyrayt.py:RayTracer._st_propagate", "pyrayt/_pyrayt.py:RayTracer._st_interact", "pyrayt/_pyrayt.py:_RayTraceDataframe.insert"]}
{"id": "C94", "title": "Directions keep unit length under rounding", "statement": "With every operation rounded, as in binary64: a surface normal, a refracted direction and a recorded tilt have length 1 up to a few roundings, and after g reflections and refractions a direction that started with unit length still has unit length up to 512 (g + 1) roundings, i.e. (g + 1) 2^-44 in binary64.  So the rounding errors of a long path of reflections, which nothing renormalises, never make the tracer take a live ray for an absorbed one: a ray that met only mirrors and glasses has a row for every generation up to the limit, or left the scene.", "quantifier": "all roundings with a bounded relative and absolute error (binary64 is shown to be one), all orders of summation with or without fused multiply-add, all normals, indices within a factor of 4, all paths of up to 2^43 interactions", "why_tests_cant": "The claim is about every accumulated rounding error over paths of any length.", "anchors": ["tinygfx/g3d/operations.py:reflect", "tinygfx/g3d/operations.py:refract", "tinygfx/g3d/world_objects.py:TracerSurface.get_world_normals", "pyrayt/_pyrayt.py:RayTracer._st_interact", "pyrayt/materials.py"]}
{"id": "C95", "title": "A ray stops where it first enters or leaves a solid", "statement": "The distance a traced ray runs is the first one at which it enters or leaves the solid of a component (or reaches a baffle): before it, the ray is wholly inside or wholly outside each component, up to single points, and there it passes from outside to inside one of them or back, through the surface the row names.  A ray is dropped exactly when it never enters nor leaves a component; a row is a ray's last one only if the limit, an absorber, or such a free path explains it.", "quantifier": "all components (trees of set operations of any depth over all primitives, and planes), placements and rays of any traced scene", "why_tests_cant": "The solids are sets of points and the claim is about every point before the recorded one; a test sees finitely many rays.", "anchors": ["tinygfx/g3d/csg.py:CSGSurface.intersect", "pyrayt/_pyrayt.py:RayTracer._st_propagate", "tinygfx/g3d/world_objects.py:TracerSurface.intersect"]}
{"id": "C96", "title": "What a prism does to the rays that pass it", "statement": "A ray that comes from air to the left face of an equilateral prism, wherever the prism stands, and next to its right face is refracted at both by Snell's law, or reflected totally at the second; leaving, it is turned towards the base by asin(a) + asin(b) - 60 degrees, which is never less than 2 asin(n/2) - 60 degrees and that much only for the symmetric passage.  Of two visible colours sent along the same direction through a prism of catalogue glass, the shorter wavelength is turned further.  If they start from one point in the plane of the triangles, the shorter one leaves further down the right face and lands, on any screen that both reach, on the base's side of the other.", "quantifier": "all prism sizes, rigid placements, index functions, scenes with other components, rays, wavelengths and points of the two faces", "why_tests_cant": "Least deviation and the order of colours are inequalities over all angles of incidence and wavelengths; the unit tests do not trace a prism.", "anchors": ["pyrayt/components.py:equilateral_prism", "tinygfx/g3d/operations.py:refract", "pyrayt/materials.py:glass", "examples/chromatic_dispersion.py:main"]}
{"id": "C97", "title": "Rows record the refractive index of the medium they run in", "statement": "If a ray's source gives the index of the medium it starts in, then in every row of its results the recorded index is that of the solid of glass it runs through, at its wavelength, or 1 where it runs through no glass, from the row's start to its end: entering, leaving, mirroring and total reflection all leave the index right.  Where two solids of glass touch this fails, because leaving one always sets the index to 1.", "quantifier": "all scenes of solids and surfaces (any Boolean combinations, placements, materials) whose glass solids keep apart from everything else, all rays whose starting index is right, whose rows do not meet edges or graze surfaces, all numbers of interactions", "why_tests_cant": "The index is bookkeeping carried from row to row and set by the sign of a dot product, so it is right only by an invariant over the whole path; tests look at one interface.", "anchors": ["pyrayt/_pyrayt.py:RayTracer.trace", "pyrayt/materials.py:Glass.trace", "tinygfx/g3d/operations.py:refract", "tinygfx/g3d/csg.py:CSGSurface"]}
{"id": "C98", "title": "Light goes back the way it came", "statement": "A ray sent back along a row of another ray's results, from any point of that row, in the same medium and of the same wavelength, retraces the whole path: it has a row against each of the earlier rows, in a medium of the same recorded index, ends each at the surface and the point where the row before ended, and leaves against the first row, through refractions, mirrors and total reflections.", "quantifier": "all scenes as in C97, all pairs of rays of the same or of two traces over the same components, all numbers of interactions up to the second trace's limit, all starting points on the row", "why_tests_cant": "Reversibility compares two whole traces, with different order of interactions and different skipped stretches after each; the tests trace no ray twice.", "anchors": ["pyrayt/_pyrayt.py:RayTracer.trace", "pyrayt/materials.py:Glass.trace", "pyrayt/materials.py:_ReflectingMaterial", "tinygfx/g3d/operations.py:refract", "tinygfx/g3d/operations.py:reflect"]}
{"id": "C99", "title": "Computed hits lie on the surface, up to rounding", "statement": "With every operation rounded, as in binary64: the point a ray is moved to for a computed distance to a sphere, to the side of a cylinder, to a paraboloid or to a flat face lies on that surface up to a fixed number of roundings of the coordinates involved; for spheres in binary64 the square of the distance from the centre is right up to 2^-40 of the square of the largest coordinate.  Towards rays parallel to the axis of a paraboloid the accuracy falls with the square of the tangent; where the code takes the quadratic term for 0, the error is that term and a fixed number of roundings.", "quantifier": "all roundings with a bounded relative and absolute error (binary64 is shown to be one), all orders of summation with or without fused multiply-add, all object matrices, radii, rays and computed distances of a size without overflow or underflow", "why_tests_cant": "The rounding errors of some dozen chained operations, with cancellation, for every ray and placement.", "anchors": ["tinygfx/g3d/primitives.py:Sphere.intersect", "tinygfx/g3d/primitives.py:Cylinder.intersect", "tinygfx/g3d/primitives.py:Paraboloid.intersect", "tinygfx/g3d/primitives.py:Plane.intersect", "tinygfx/g3d/operations.py:binomial_root", "pyrayt/_pyrayt.py:RayTracer._st_propagate"]}
{"id": "C100", "title": "Rounding neither invents nor loses clear crossings", "statement": "With every operation rounded: a line that goes into a sphere or a cylinder by more than 128 roundings is found to hit it, and one that stays outside by that much is not; a ray that starts outside by 256 roundings and does not come nearer gets both distances negative, so it does not hit the surface it left; one that starts that much inside gets one hit before it and one behind. Paraboloids obey the same with 2048 and 4096 roundings of a length that grows as the ray nears their axis.", "quantifier": "all roundings with a bounded relative and absolute error, all orders of summation, all radii and rays of a size without overflow or underflow", "why_tests_cant": "Signs of rounded discriminants and roots for every ray, near cancellation.", "anchors": ["tinygfx/g3d/primitives.py:Sphere.intersect", "tinygfx/g3d/primitives.py:Cylinder.intersect", "tinygfx/g3d/primitives.py:Paraboloid.intersect", "tinygfx/g3d/operations.py:binomial_root"]}
{"id": "C101", "title": "In a bench of many parts mirrors do what their names say", "statement": "In any trace of any scene, wherever a mirror made by the factories stands and however it is turned: a ray along the axis of a parabolic mirror passes its focus after 2f plus the depth at which it was reflected, so that all such rays have gone equally far, and a ray from the focus leaves along the axis; two parabolic mirrors with one focus turn a parallel beam into a parallel beam over equal paths; a ray along a radius of a spherical mirror goes back, and one along its axis crosses the axis at r - r|r|/(2k), k = |r - depth|; a ray reflected by a plane mirror leaves as if it came from the image of any point on its way. The index column does not change.", "quantifier": "all scenes, traces, rows, placements by rotation, reflection and translation, sizes, apertures and off-axis shifts", "why_tests_cant": "Every scene, placement and row of every trace.", "anchors": ["pyrayt/components.py:parabolic_mirror", "pyrayt/components.py:spherical_mirror", "pyrayt/components.py:plane_mirror", "pyrayt/_pyrayt.py:RayTracer.trace", "pyrayt/materials.py:_ReflectingMaterial.trace"]}
{"id": "C102", "title": "Whatever happened to a CSG object, its hits show its parts through its stored boxes", "statement": "After any successful sequence of constructions and movements, of whole objects and of parts, the hits of a CSG object along a ray delimit the union, intersection or difference of what its two operands show, and a CSG object through whose stored bounding box the ray does not pass shows nothing. The box of a union is, along each axis, the common extent of its parts if they overlap and the extent of the lower part if they are apart; so a union shows all of both parts to a ray through that box and nothing to any other. Unless a CSG object is subtracted, nothing is reported as inside that is not.", "quantifier": "all programs of constructions and movements, trees, rays outside the isclose bands, and orders np.argsort may leave ties in", "why_tests_cant": "Every history, tree and ray; the boxes need not be right.", "anchors": ["tinygfx/g3d/csg.py:CSGSurface.intersect", "tinygfx/g3d/csg.py:CSGSurface._update_bounding_box", "tinygfx/g3d/primitives.py:Cube.intersect"]}
{"id": "C103", "title": "What every ray reports, parallel or almost parallel", "statement": "For every object built through the API and every ray, the hits delimit a described set of times, also for rays that are neither exactly parallel nor clearly not parallel to a face or an axis. Cuboids, planes and stored boxes take the parts of a direction that are at most 1e-8 for 0, which moves no point by more than 1e-8 times the distance. A cylinder met by a ray whose squared part across the axis is at most 1e-8 is met as by an exactly parallel ray only while the ray keeps its distance from the axis; any other such ray gets a single point or none, so that lenses with a round aperture do not exist for a beam 0.003 degrees off their axis. Outside that band the set is the solid itself.", "quantifier": "all programs that build objects, all rays with a position and a direction, all directions however small their parts", "why_tests_cant": "the deviations occur only in a narrow band of directions, which differs for each primitive and depends on the transform of each part; tests use rays exactly along an axis or far from it", "anchors": ["tinygfx/g3d/primitives.py:Cylinder.intersect", "tinygfx/g3d/primitives.py:Cube.intersect", "tinygfx/g3d/primitives.py:Plane.intersect", "tinygfx/g3d/primitives.py:Paraboloid.intersect", "tinygfx/g3d/operations.py:binomial_root", "pyrayt/components.py:thick_lens", "pyrayt/components.py:biconvex_lens"]}
{"id": "C104", "title": "The quaternion an object reports is its rotation", "statement": "get_quaternion returns a quaternion of norm one that turns directions as the object does: it agrees with to_world_coordinates and get_orientation, and rotating an object (or a group it belongs to) multiplies its quaternion by that of the rotation, moving leaves it alone. Scaling should not change it, but does for rotated objects.", "quantifier": "all programs of constructions, movements and rotations (by any axis order, angles and units), all groupings, all objects", "why_tests_cant": "Every history of rotations; the code is one formula out of four depending on the matrix.", "anchors": ["tinygfx/g3d/world_objects.py:WorldObject.get_quaternion", "tinygfx/g3d/world_objects.py:WorldObject.get_orientation", "tinygfx/g3d/world_objects.py:WorldObject.rotate_x"]}
{"id": "C105", "title": "Tracers share nothing but what they were given", "statement": "A DataFrame returned by trace or get_results is a snapshot: whatever the program does afterwards with this or other tracers, with the lists or with the scene, its rows stay; only calculate_source_ids adds a column, and only to the current result. Settings of a tracer are read back as set last. A tracer looks at the collections of sources and components it was given each time it traces, so changes to a list are seen and any iterable serves as well as a list.", "quantifier": "all programs over any number of tracers, lists, iterators and world objects, with exceptions caught, of any length", "why_tests_cant": "aliasing between results, lists and tracers only shows in histories; tests build one tracer from one list and trace once", "anchors": ["pyrayt/_pyrayt.py: RayTracer.__init__, trace, get_results, reset, load_components, calculate_source_ids, set_rays_per_source, set_generation_limit", "pyrayt/_pyrayt.py: _RayTraceDataframe"]}
{"id": "C106", "title": "Computed reflections and refractions obey the laws of optics", "statement": "With every operation rounded, as in binary64: the normal a surface reports is the exact unit normal (or its opposite) up to 20 roundings.  About that exact normal, a computed reflection is the mirror image up to 256 roundings (2^-45 in binary64), and a computed refraction satisfies Snell's law, in the plane of incidence and on the far side, up to 4096 roundings (2^-41), at every angle of incidence, also next to the critical angle where the refracted angle itself is badly conditioned.  The choice between refraction and total reflection is right except within that error of the critical angle, and the index given to the ray is that of the side it goes to.  This holds at every interaction of a ray, however many came before.", "quantifier": "all rounding functions of relative error u and absolute error eta (binary64 among them), all normals, directions and angles of incidence, all positive indices of which the incoming one is at most four times the other, all orders of summation, journeys of any length up to 512 (g + 1) u <= 1/2", "why_tests_cant": "a test samples some angles and compares with a tolerance; it cannot show that no angle, near the critical one or elsewhere, amplifies the rounding errors", "anchors": ["tinygfx/g3d/operations.py: reflect, refract", "tinygfx/g3d/world_objects.py: TracerSurface.get_world_normals"]}
{"id": "C107", "title": "Any train of lenses follows the product of its matrices near the axis", "statement": "Build any number of lenses with thick_lens, biconvex_lens and plano_convex_lens in any mixture, move them along the x axis so that they stand behind one another with air between them, put a screen behind them, and hand them to the tracer in any order. A ray that starts before the first lens in a plane through the axis passes through every lens in turn and ends on the screen; its rows show the indices of the media on the way. As its height and slope shrink in proportion, its height on the screen tends to what the product of the lens and air matrices of Gaussian optics says; where the matrix has no B element all rays of an object point meet in one image point.", "quantifier": "all numbers and mixtures of lenses, all radii (also planes), thicknesses, apertures, indices and positions of a train in line, all listing orders, all object positions, heights, slopes and planes through the axis, in the limit of small heights", "why_tests_cant": "a test traces one train with some rays; the claim needs a limit, for every number of lenses", "anchors": ["pyrayt/components.py: thick_lens, biconvex_lens, plano_convex_lens", "tinygfx/g3d/world_objects.py: WorldObject.move_x", "pyrayt/_pyrayt.py: RayTracer.trace"]}
{"id": "C108", "title": "Objects that were never put together leave one another alone", "statement": "Take any set of objects such that no call so far brought one of them together with an object outside the set (in a CSG operation or a group). A call that is given none of them leaves every one of them exactly as it was: transforms, boxes, normals, ids; also when it raises half way. In particular a piece of program that names only objects it made itself changes nothing that was there before it.", "quantifier": "all programs of constructions, groupings, movements and normal inversions, with calls that raise caught, all sets of objects kept apart by them, all further calls", "why_tests_cant": "tests check some objects after some calls; interference would come from handlers registered on shared objects by some unforeseen order of calls", "anchors": ["tinygfx/g3d/world_objects.py: WorldObject.append_world_transform, attach_to, ObjectGroup", "tinygfx/g3d/csg.py: CSGSurface.__init__"]}
{"id": "C109", "title": "Which bounding boxes a solid stores after it or a part of it was moved", "statement": "Move any part of a CSG solid that shares no parts, at any depth, after any history. The moved part and the parts of it move; nothing else of the solid does. Each moved surface gets the box of its new place; a moved CSG object stores the box combined from its left operand's new box and, for the right operand, its new box if it is a surface and otherwise what the boxes of that operand's own operands gave before the movement. Of the objects around the moved part only the direct parent stores a new box. Moving the solid again by nothing, as often as its nesting on the right asks for, makes every box right and changes neither its surfaces nor its points.", "quantifier": "all histories, all CSG trees without sharing, all parts at any depth, all movements", "why_tests_cant": "tests look at boxes of small trees built in one way; staleness depends on depth, side and operation of every nesting", "anchors": ["tinygfx/g3d/csg.py: CSGSurface.__init__, _update_bounding_box, _append_world_transform", "tinygfx/g3d/world_objects.py: WorldObject._append_world_transform, Intersectable.attach_to"]}
{"id": "C110", "title": "Biconvex and plano-convex lenses focus as documented", "statement": "biconvex_lens(r1, r2, t) and plano_convex_lens(r, t), moved anywhere along the x axis, act on rays near the axis as a thick lens whose first surface has radius r1 (or is flat), whose second surface has radius -r2 (or -r), and whose vertices lie t apart around its centre: the height at which a ray reaches any screen behind it tends to what the matrix of that lens says.", "quantifier": "all radii, thicknesses, apertures, indices, positions, screens, heights, slopes and planes through the axis, in the limit of small heights", "why_tests_cant": "a test traces some rays through a lens with r1 = r2; the claim is a limit over all radii", "anchors": ["pyrayt/components.py: biconvex_lens, plano_convex_lens"]}
{"id": "C111", "title": "Which surface a pixel of a picture shows, exactly", "statement": "A renderer's pixel is decided by this rule: each component offers its nearest hit ahead of the camera along the pixel's ray or, if it meets the ray's line only behind the camera, its farthest hit behind; the pixel shows the component with the least offer (the first listed on a tie), and nothing if there is no offer. Hence a pixel shows what a traced ray would meet if and only if no component meets the line of sight only behind the camera, one such component hides everything ahead, and both views of draw follow the rule wherever the scene lies.", "quantifier": "every list of components of any shape (including nested solids), every pixel ray, every scene extent and resolution", "why_tests_cant": "Whether anything is missing or hidden depends on the position of every component relative to every line of sight, in front of and behind the camera.", "anchors": ["tinygfx/g3d/renderers.py: EdgeRender._st_propagate, ShadedRenderer._st_propagate, draw, _draw_xy, _draw_xz"]}
{"id": "C112", "title": "The offset keeps a ray from meeting again the surface it just left", "statement": "With every operation rounded, a ray that was moved to its computed hit on a sphere, a cylinder's side, a paraboloid or a flat face, and that is then stepped off by ray_offset_value along its new direction, finds that surface behind it: leaving outwards it computes no positive distance to it, and going inwards its only positive distance is to the far side. This holds whenever the ray leaves the surface at a rate above an explicit bound that grows with the size of the coordinates; in binary64 with the offset 1e-6 the bound on the rate is S*S/1000000 for a sphere, S/50000000 for a flat face and K*K/250000 for a paraboloid. The offset is an absolute length: at 2^35 or more from the origin it does not move a ray at all.", "quantifier": "every rounding with a relative and an absolute error bound (binary64 among them), every order of summation, every object matrix, hit, new direction and offset up to 1", "why_tests_cant": "Whether the point after the step is on the right side depends on the rounding errors of the hit, of the move, of the step and of two changes of coordinates, for every pose and distance.", "anchors": ["pyrayt/_pyrayt.py: RayTracer.ray_offset_value, RayTracer._st_propagate, RayTracer._st_interact", "tinygfx/g3d/primitives.py: Sphere.intersect, Cylinder.intersect, Paraboloid.intersect, Plane.intersect, Cube.intersect"]}
{"id": "C113", "title": "Arrays from the getters do not give access to the object's own transforms", "statement": "A caller may keep and overwrite the arrays it gets. What get_world_transform and get_object_transform return is the caller's own: whatever any program writes into those arrays, or into an array it gave to transform, every object keeps its transforms and the solid it is seen as, and an array that is held changes only when the caller writes into it. The arrays of get_position and get_orientation are to be the caller's own as well; a program that does not write into these cannot tell the difference, and after any writes the next movement of the object makes its position and orientation right again.", "quantifier": "every program of constructors, movements, CSG operations, getters, in-place writes of any kind and transforms by held arrays, with exceptions caught, and every order of the statements", "why_tests_cant": "Whether an array is shared shows only after some later statement; tests would have to try every later statement.", "anchors": ["tinygfx/g3d/world_objects.py: WorldObject.get_world_transform, WorldObject.get_object_transform, WorldObject.get_position, WorldObject.get_orientation, WorldObject._append_world_transform, WorldObject._world_matrix_update_handler, WorldObject.transform", "tinygfx/g3d/csg.py: CSGSurface._append_world_transform"]}
{"id": "C114", "title": "Abbe numbers and indices follow the coefficients of the glass", "statement": "g.index_at(w) and g.abbe() give the values for the coefficients that g has at the time of the call, for any number of glasses, whatever was asked before, and after assignments to the public attributes b1, b2, b3, c1, c2, c3. For indices this holds always. For Abbe numbers it holds as long as no coefficient is assigned to; otherwise abbe() may return the number for coefficients this glass had earlier, and it does so exactly until the Abbe numbers of a hundred other glasses were returned.", "quantifier": "every sequence of constructions, attribute assignments, index_at and abbe calls on any number of glasses", "why_tests_cant": "A cache shows only in certain orders of calls, and an eviction only after a hundred glasses.", "anchors": ["pyrayt/materials.py: Glass.abbe, SellmeierRefractor.index_at, BasicRefractor.index_at"]}
{"id": "C115", "title": "The colour of a ray matters only through the index of the glass, and short waves are bent more", "statement": "Trace a blue and a red ray that start together parallel to the axis of a thick lens of BK7, SF2 or SF5 onto a screen behind it. Behind a converging lens (front convex or plane and more curved than the back) the blue one lands lower on its side of the axis than the red one, behind a biconcave or plano-concave lens it lands higher; the difference is a fixed part of the height at which the rays came in, for all rays close enough to the axis. Where no glass in the scene tells the two colours apart, the two rays leave the same rows except for wavelength, intensity and id.", "quantifier": "every thick lens that fits its aperture, every glass of the catalogue, all pairs of visible wavelengths, every screen position and every azimuth of the rays; for the last part every scene of components whatsoever", "why_tests_cant": "Tests sample a few wavelengths, radii and screens.", "anchors": ["pyrayt/materials.py: SellmeierRefractor.index_at, TracableMaterial.trace, glass", "pyrayt/components.py: thick_lens", "pyrayt/_pyrayt.py: RayTracer.trace", "examples/chromatic_dispersion.py"]}
{"id": "C116", "title": "Directions behind lenses, and the focus computed from the rows, are those of Gaussian optics", "statement": "Behind any train of lenses on one axis, the tilt recorded in the last row of a ray close to the axis is, over the height or slope at which the ray started, as close as one likes to the slope that the product of the matrices gives. The formula x0 - x_tilt*y0/y_tilt on that row gives the point where such rays cross the axis, wherever the screen stands; for one lens and parallel light that point lies the focal length of lensmakers_equation behind the back principal plane. Rays from a point in the front focal plane leave parallel to one another.", "quantifier": "every train of lenses made by thick_lens, biconvex_lens and plano_convex_lens, any order of the components, every screen position, azimuth, starting height and slope, every tolerance", "why_tests_cant": "The focus is a limit; a test measures it for one lens, one wavelength and rays of finite height.", "anchors": ["pyrayt/components.py: thick_lens, biconvex_lens, plano_convex_lens", "pyrayt/utils.py: lensmakers_equation", "pyrayt/_pyrayt.py: RayTracer.trace, RayTracer.get_results", "examples/lens_design.ipynb: spherical_aberration, chromatic_abberation", "examples/convex_collimator.py"]}
{"id": "C117", "title": "Rounding makes moved objects drift slowly", "statement": "An object moved and turned n times stands, in floating point, within (1+c)^n-1 times its largest distance from the origin of where exact arithmetic would put it, c being 21 units of rounding plus the error of sine and cosine; its axes and the direction it reports are off by twice that. In binary64 this is at most n times 2e-14 for up to 2^30 movements. Movements that cancel bring it back up to that much, parts moved together keep their distance up to that much, a move alone rounds each coordinate once and does not touch the axes, and no such call raises. The error is relative to the largest distance: a small move made before a long excursion can be lost.", "quantifier": "every number and order of move, move_x..z, rotate_x..z calls with machine numbers, every rounding with the stated relative and absolute error, every accuracy of sine and cosine, every order of summation inside the products", "why_tests_cant": "Errors accumulate over histories; a test compares after a few calls with a tolerance that hides them.", "anchors": ["tinygfx/g3d/world_objects.py: WorldObject.move, WorldObject.rotate_x, WorldObject.rotate_y, WorldObject.rotate_z, WorldObject._world_matrix_update_handler, WorldObject.get_position, WorldObject.get_orientation"]}
{"id": "C118", "title": "Shapes are what their constructors were asked for, and readers tell it", "statement": "Sphere, Cylinder, Paraboloid, XYPlane, Cuboid, Cuboid.from_sides and Cuboid.from_length make the solid their arguments describe, whatever the signs of radii and sides and the order of corners and heights, with the documented defaults for arguments left out; only a paraboloid whose focus or height is not positive is refused. get_radius and get_focus give back the given number after any later calls.", "quantifier": "every constructor call and every real argument, every ray whose direction components are zero or clearly not zero, every later program", "why_tests_cant": "A test builds shapes with sensible arguments; signs, orders and all rays are unboundedly many.", "anchors": ["tinygfx/g3d/world_objects.py: Sphere, Cylinder, Paraboloid, XYPlane, Cuboid.from_sides, Cuboid.from_length, TracerSurface.primitive", "tinygfx/g3d/primitives.py: Sphere.get_radius, Cylinder.get_radius, Paraboloid.get_focus, Cylinder.intersect, Plane.intersect"]}
{"id": "C119", "title": "Rays meet moved objects where they should be, up to rounding", "statement": "An object is moved and turned any number of times in floating point, and a ray is found to hit its sphere, the side of its cylinder, its paraboloid or one of its flat faces. The point the ray is moved to then lies on the surface as exact arithmetic places it, up to 2^-34 L (L/r) (2^-45 L for flat faces) for the roundings of the intersection in binary64, 9 e L for the drift e of the object (n times 2e-14 after n movements) and 4 rho L for the residual rho of the matrix inverse, where L bounds the distances of the object, of the ray's start and of its path from the origin. On a paraboloid of focal length f, measured along its axis, the point is off by at most 2^-40 (8L + c)^2/f, where c is how far the ray climbs while it goes f across, or L^2/(3e7 f) for a ray so nearly along the axis that the code drops the quadratic term, and by 3 (4 rho + 9 e) L (L/f).", "quantifier": "every history of move and rotate calls with machine numbers, every ray with a direction of length between 1/2 and 2, every radius, focal length and face height up to L, every inverse with a relative residual up to 1/100, every rounding with the stated error, every order of summation", "why_tests_cant": "The error of a hit combines the whole history of the object with the size of all numbers on the way; a test sees single scenes.", "anchors": ["tinygfx/g3d/world_objects.py: WorldObject.move, WorldObject.rotate_x, WorldObject._world_matrix_update_handler, WorldObject._get_object_transform, WorldObject.get_position", "tinygfx/g3d/primitives.py: Sphere.intersect, Cylinder.intersect, Paraboloid.intersect, Cube.intersect, Plane.intersect", "pyrayt/_pyrayt.py: RayTracer._st_interact"]}
{"id": "C120", "title": "Rays folded by flat mirrors run straight from the images of their start", "statement": "However many flat mirrors a ray meets one after the other in a trace, each next row's direction is the first direction reflected in the planes of the mirrors in their order, its index is unchanged, and its end lies on the straight line from the successive image of the ray's start, at a distance equal to the whole length of the way. So two mirrors keep what runs along their common edge and turn the rest by twice their angle, however the ray falls in, and three mirrors at right angles send every ray back in the direction it came from, as from the point image of its start in the corner. A Plane that is a mirror is flat in this sense wherever it was moved, turned, scaled or inverted.", "quantifier": "every proper scene and trace, every ray, every number and order of flat mirrors (planes, or flat sides of solids, wherever the normal there is that of the plane), every incidence", "why_tests_cant": "Reflections compose along chains of any length; a test follows one chain at a time.", "anchors": ["pyrayt/_pyrayt.py: RayTracer.trace, RayTracer._st_propagate, RayTracer._st_interact", "pyrayt/materials.py: _ReflectingMaterial.trace", "tinygfx/g3d/operations.py: reflect", "tinygfx/g3d/primitives.py: Plane.intersect, Plane.normal"]}
{"id": "C121", "title": "Faces turned to the viewer of a drawing are lit", "statement": "In a shaded drawing, a pixel that shows a point whose outward normal goes straight to the viewer mixes the warm and the cool tone of the material shown there, with more of the warm tone: what faces the viewer looks lit.", "quantifier": "every list of surfaces, every view, bounds and resolution for which draw returns a picture, every pixel of it", "why_tests_cant": "The light's place is computed from the scene's bounding box; a test looks at one scene, and whether a face is lit depends on where the scene stands relative to the origin.", "anchors": ["tinygfx/g3d/renderers.py: draw, _draw_xy, _draw_xz, ShadedRenderer", "tinygfx/g3d/materials/gooch.py: GoochMaterial.shade"]}
{"id": "C122", "title": "Rays keep what the symmetry of the bench lets them keep", "statement": "While a ray meets only surfaces that are round about an axis (their normals, where it meets them, meet the axis or are parallel to it), the refractive index times the moment of its direction about the axis is the same in every row, whatever the surfaces do to it: refract, reflect or totally reflect. While it meets only surfaces drawn out along a direction (their normals are at right angles to it), the index times the part of its direction along it is the same in every row. In particular, lenses with round apertures on the optical axis, together with absorbers anywhere, keep index * (y dz - z dy) for every ray.", "quantifier": "every proper scene and trace, every axis and direction, every ray, however many surfaces it meets and in what order; every lens that the factories make", "why_tests_cant": "It is an invariant over chains of interactions of any length at arbitrary points of the surfaces; a test follows one ray.", "anchors": ["pyrayt/_pyrayt.py: RayTracer.trace, RayTracer._st_propagate, RayTracer._st_interact", "pyrayt/materials.py: _ReflectingMaterial.trace, _RefractingMaterial.trace", "tinygfx/g3d/operations.py: refract, reflect", "pyrayt/components.py: thick_lens, biconvex_lens, plano_convex_lens"]}
{"id": "C123", "title": "Baffles absorb what crosses them, aperture stops what crosses outside the opening", "statement": "A ray that crosses the rectangle of a baffle is taken to the crossing point and stopped there; a ray that does not is left alone. A ray that crosses the plate of an aperture stop outside its opening is stopped at the crossing point; one that crosses inside the opening is let by; no ray is affected in any other way, and the hidden solid that cuts the opening out is never what a ray hits.", "quantifier": "every size of the plate and of the opening, round or rectangular, and every ray whose direction components are not so small that they are taken for zero", "why_tests_cant": "The stop is a plane minus a solid; whether the plane survives depends on the order of four hit distances, two of them always equal, for every ray.", "anchors": ["pyrayt/components.py: baffle, aperture, _create_aperture", "tinygfx/g3d/csg.py: array_csg, CSGSurface.intersect", "tinygfx/g3d/primitives.py: Plane.intersect", "pyrayt/materials.py: absorber"]}
{"id": "C124", "title": "Plates with holes and trimmed plates are hit where they are left and let rays by where they are cut", "statement": "Subtract any number of solids from a plate (a plane) and intersect it with any number of others, in any order: a double slit, a round mirror, a baffle with holes. A ray that crosses the plate is sent to the crossing point and meets the plate's own surface and material there if, just before the crossing, it is outside every solid that was subtracted and inside every solid the plate was intersected with; otherwise it is let by. Nothing else happens to any ray: the solids that cut the plate are never what a ray hits.", "quantifier": "every plate of any size, placement and material, every number and shape of the solids it is cut with (themselves CSG trees whose boxes the code gets right, see C06), and every ray that is not within the tolerance bands and does not run along the plate", "why_tests_cant": "The plate reports its hit twice, and every difference sorts both among the hits of another solid; the claim is about every number of holes and every order of their hits.", "anchors": ["tinygfx/g3d/csg.py: array_csg, CSGSurface.intersect, CSGSurface._update_bounding_box, difference", "tinygfx/g3d/primitives.py: Plane.intersect, Plane.bounding_points", "pyrayt/_pyrayt.py: RayTracer._propagate"]}
{"id": "C125", "title": "Absorbing components only cut rays short", "statement": "Add absorbing components to a bench: baffles, stops, detectors, aperture stops with the solid that cuts them. For every ray the rows of the trace are the rows it has without these components, or they are these rows up to one leg, which now ends on one of the added components, at or before the place where it ended. So every row that does not end on an added component is also in the results without them: absorbers never bring light anywhere it was not.", "quantifier": "every bench whose surface numbers are distinct, every set of components whose surfaces are all absorbing (or never hit), any number of sources, rays, generations and other components of any material, for all traces that run to the end", "why_tests_cant": "The claim compares two whole traces on arbitrary benches, step by step along every ray; tests compare a few frames.", "anchors": ["pyrayt/_pyrayt.py: RayTracer._propagate, RayTracer._interact, RayTracer.trace", "pyrayt/materials.py: absorber", "pyrayt/components.py: baffle, aperture"]}
{"id": "C126", "title": "Balls of glass turn rays twice by the same angle and have perfect points", "statement": "A ray in air that enters a ball of glass and comes to its surface again always leaves there: it is never trapped by total reflection. Outside, its direction is the old one turned over the direction inside, so it turns by the same angle, to the same side and in the same plane, on entering and on leaving, and the angle is the one Snell's law gives. And the rays inside the ball that come from a point at distance r/n from the centre, on any path that starts towards the side of the centre, leave the ball as if they all came from the point at distance n*r in the same direction from the centre.", "quantifier": "every bench, every ball (of any radius, moved and rotated in any way), every index from 1 (above 1 for the points), every ray, angle, wavelength and place in the ray's history", "why_tests_cant": "The claims are about every angle and position, and about the sequence of two refractions; tests evaluate a few rays with a tolerance.", "anchors": ["pyrayt/_pyrayt.py: RayTracer.trace, RayTracer._interact", "pyrayt/materials.py: Glass.trace, BasicRefractor, SellmeierRefractor", "tinygfx/g3d/operations.py: refract", "tinygfx/g3d/primitives.py: Sphere"]}
{"id": "C127", "title": "Rods and tubes guide light", "statement": "A ray whose meeting with the side of a cylinder is a reflection (the cylinder is a mirror, or the ray runs in its glass and comes to the side beyond the critical angle) and that meets the side again and again is reflected every time: it keeps its refractive index, its component along the axis and its angle with the side, and advances along the axis by the same amount from one meeting to the next, for any number of meetings. A rod of glass of index at least the square root of two guides every ray that enters it from air through an end: no leg leaves through the side, and at the other end the ray leaves in air at the angle to the axis at which it came.", "quantifier": "every bench, every capped cylinder (of any radius, length and place), every ray, angle, wavelength and place in the ray's history, any number of reflections in a row", "why_tests_cant": "The number of reflections is not bounded and the claims hold for skew rays at every angle; tests follow a few rays a few steps.", "anchors": ["pyrayt/_pyrayt.py: RayTracer.trace, RayTracer._interact", "pyrayt/materials.py: Glass.trace, _ReflectingMaterial", "tinygfx/g3d/operations.py: refract, reflect", "tinygfx/g3d/primitives.py: Cylinder"]}
{"id": "C128", "title": "Rays leave a block of glass as they entered it", "statement": "Take a cuboid of glass whose index is at least the square root of two. A ray that enters it from air through a face, and then meets faces of the block any number of times, leaves it exactly when it comes from inside to a face of the pair through which it entered: through the other four faces it never leaves, by the faces of the pair it is never kept. Outside, its direction has along each axis of the block, up to sign, what it had before; inside, along the axes of the faces, that value divided by the index. A ray that goes straight through, from one face to the opposite one, leaves in the very direction it came, for every index from one up; it has been carried along each other axis by the thickness times its component along that axis over sqrt(n^2 - 1 + c^2), c being its component across the plate.", "quantifier": "every bench, every cuboid (of any size and place), every pair of faces, every ray, angle and wavelength, any number of reflections inside", "why_tests_cant": "The number of reflections is not bounded and every direction in space is meant; tests follow a few rays through a few faces.", "anchors": ["pyrayt/_pyrayt.py: RayTracer.trace, RayTracer._interact", "pyrayt/materials.py: Glass.trace", "tinygfx/g3d/operations.py: refract", "tinygfx/g3d/primitives.py: Cube.intersect, Cube.normal"]}
{"id": "C129", "title": "Methods find the attributes they read, even after interrupted calls", "statement": "Once a RayTracer, an EdgeRender or a ShadedRenderer is built, none of its public methods ever fails because an attribute of the object itself was not assigned, nor because its state machine is in a state it has no entry for: whatever was called before, in whatever order, and wherever an earlier call was broken off by an exception (of a source, a component, numpy, matplotlib, or a keyboard interrupt) that the caller caught. Nor does a constructor fail in that way.", "quantifier": "all histories of calls of public methods on one object, of any length, each call broken off at any read or assignment of an attribute or at any call of other code, or not at all; every way the tests and loops in the methods may go", "why_tests_cant": "The histories and the points of interruption are unboundedly many; a test runs methods in the usual order and to the end.", "anchors": ["pyrayt/_pyrayt.py: RayTracer", "tinygfx/g3d/renderers.py: EdgeRender, ShadedRenderer"]}
{"id": "C130", "title": "Interrupted movements leave objects whole", "statement": "If move, scale, rotate or transform is broken off by an interrupt (Ctrl-C in a notebook), the object is as before or moved: get_world_transform, get_object_transform, get_position, get_orientation and the bounding box all belong to the same transform. In any case the next movement that is let finish makes them so again, and so does leaving a pin context, which brings the object back to where it was on entry.", "quantifier": "every object (by itself: WorldObject, camera, source, surface; or made of parts), all histories of movements of any length, each interrupted between any two assignments or not", "why_tests_cant": "The interrupt may come between any two steps of any movement of any history; a test cannot place it.", "anchors": ["tinygfx/g3d/world_objects.py: WorldObject._append_world_transform, WorldObject._world_matrix_update_handler, TracerSurface._boundary_box_update_fn"]}

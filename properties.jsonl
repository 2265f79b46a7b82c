{"id": "C01", "title": "Inverting an affine transform undoes it", "statement": "For an affine transform t whose linear part is invertible, t.Inverse() undoes t on points and on directions, in both orders, and the composition of t with its inverse is the identity transform.", "quantifier": "every transform with non-zero determinant, every point and direction (exact real arithmetic)", "why_tests_cant": "A test can only try particular matrices; a transposed cofactor or wrong sign shows up only for matrices without the symmetry of the samples.", "anchors": ["geom/matrix.go: Inverse, Mul, MulVec", "geom/affinetransform.go: Inverse, TransformPoint, TransformDir, After, Before"]}
{"id": "C02", "title": "Transform composition applies the parts in the documented order", "statement": "Applying a.Before(b) is applying a then b, a.After(b) is applying b then a, and ComposeLR(ts...) applies all its arguments from left to right, for points and for directions; with no arguments it is the identity.", "quantifier": "every list of transforms of every length, every point and direction (exact real arithmetic)", "why_tests_cant": "Order mistakes cancel for commuting samples; the list length is unbounded.", "anchors": ["geom/affinetransform.go: ComposeLR, Before, After", "geom/matrix.go: Mul"]}
{"id": "C03", "title": "Rotations are rigid, right-handed and turn by exactly the requested angle", "statement": "Rotate(origin, axis, angle) with a non-zero axis keeps every point of the axis through origin fixed, preserves all distances and orientation, and turns every vector perpendicular to the axis counter-clockwise by exactly angle; rotating by angle and then by -angle is the identity. Yaw, Pitch and Roll are the rotations about +Y, +X and +Z.", "quantifier": "every origin, every non-zero axis (of any length), every angle, every point (exact real arithmetic)", "why_tests_cant": "Examples cover the coordinate axes and a few angles only; errors in off-diagonal terms vanish there.", "anchors": ["geom/affinetransform.go: Rotate, WithOrigin, Yaw, Pitch, Roll, YawPitchRoll", "geom/matrix.go: rotationMatrix", "util/util.go: Sin, Cos"]}
{"id": "C04", "title": "Translate, Scale, WithOrigin and MapBaseTo do exactly what they say", "statement": "Translate(d) moves every point by d and leaves directions alone; Scale(o,s) keeps o fixed and multiplies every distance by |s|; t.WithOrigin(o) acts on displacements from o as t acts on displacements from the origin (so it keeps o fixed when t keeps the origin fixed) and has the same effect on directions as t; MapBaseTo(o,x,y,z) sends the standard frame to (o; x,y,z).", "quantifier": "every transform, origin, scale factor, point and direction (exact real arithmetic)", "why_tests_cant": "A missing origin correction is invisible when the tested origin is zero.", "anchors": ["geom/affinetransform.go: Translate, Scale, WithOrigin, MapBaseTo"]}
{"id": "C05", "title": "Halton numbers lie strictly inside the unit interval and never repeat", "statement": "For a base b>=2, Halton(b,i) lies strictly between 0 and 1 for every index i>=0 used by the renderer, and different indices give different values.", "quantifier": "every base b>=2 and every pair of indices i,j >= 0 (exact arithmetic)", "why_tests_cant": "Indices are unbounded; collisions need two specific indices.", "anchors": ["tracer/sequence/halton.go: Halton"]}
{"id": "C06", "title": "Halton sequence is perfectly stratified in every window of b^k positions", "statement": "Among any b^k consecutive sequence positions, every interval [j/b^k,(j+1)/b^k) contains exactly one Halton number.", "quantifier": "every base b>=2, every k, every window and every interval index j (exact arithmetic)", "why_tests_cant": "Stratification is a statement about all resolutions of an infinite sequence.", "anchors": ["tracer/sequence/halton.go: Halton"]}
{"id": "C07", "title": "The floating-point Halton loop performs exact integer division and terminates", "statement": "Halton divides its integer index by going through float64 division and Floor; for every index below 2^53 and base in [2,2^53) this yields exactly the integer quotient, so the loop walks the base-b digits of the index and stops after at most 53 iterations.", "quantifier": "every index 0 <= i < 2^53 and base 2 <= b < 2^53 in IEEE binary64", "why_tests_cant": "Rounding could turn the quotient up at isolated index values no test would pick.", "anchors": ["tracer/sequence/halton.go: Halton"]}
{"id": "C08", "title": "Quasi-random samples are always in [0,1)", "statement": "Both numbers returned by a pixel sequence's Generate2 lie in [0,1) in double precision, for every pixel shift in [0,1) and every pass; Frac never returns a value outside [0,1) for non-negative input.", "quantifier": "every non-negative binary64 argument of Frac; every pass and every pixel shift in [0,1)", "why_tests_cant": "The sum is wrapped with Frac; whether rounding can produce exactly 1 cannot be sampled.", "anchors": ["util/util.go: Frac", "tracer/sequence/sequence.go: halton.Generate2"]}
{"id": "C09", "title": "Cosine hemisphere sampling returns unit vectors above the surface", "statement": "For every unit normal n and u,v in [0,1], CosineSphere(u,v,n) is a unit vector whose cosine with n is exactly sqrt(1-v) >= 0; the internally constructed tangent frame is orthonormal for every normal (no degenerate direction).", "quantifier": "every unit normal and every (u,v) in the unit square (exact real arithmetic)", "why_tests_cant": "Degenerate tangent frames occur only for special normals.", "anchors": ["tracer/sequence/mappings.go: CosineSphere, UniformDisk", "geom/vec.go"]}
{"id": "C10", "title": "Disk sampling stays inside the disk with uniform radius law", "statement": "UniformDisk(u,v) lies in the closed unit disk at squared radius v and polar angle 2*pi*u.", "quantifier": "every u,v in [0,1] (exact real arithmetic)", "why_tests_cant": "Continuum of inputs.", "anchors": ["tracer/sequence/mappings.go: UniformDisk"]}
{"id": "C11", "title": "Tiles partition the image exactly", "statement": "The tiles handed to the render workers cover every pixel of a w x h image exactly once, contain no pixel outside it, are non-empty and at most tileSize x tileSize.", "quantifier": "every image size w,h >= 0 and every tile size >= 1", "why_tests_cant": "Edge tiles depend on w,h modulo the tile size; sizes are unbounded.", "anchors": ["tracer/sampler.go: tessellate, divUp, min"]}
{"id": "C12", "title": "Filling the work queue never blocks", "statement": "The number of tiles sent before any worker exists never exceeds the channel's buffer capacity, so Sample cannot deadlock while queueing work, for every image size including empty images.", "quantifier": "every image size w,h >= 0 and every tile size >= 1", "why_tests_cant": "A blocked send is a hang that only appears for particular sizes.", "anchors": ["tracer/sampler.go: tessellate, divUp"]}
{"id": "C13", "title": "The rendered image does not depend on goroutine scheduling", "statement": "For an image function that is determined by pixel position and pass, every interleaving of every number of worker goroutines (down to single loads and stores of the accumulators) ends in the same accumulators, no two workers ever access the same pixel, and every run terminates with all tiles processed.", "quantifier": "every number of workers >= 1, every schedule, every image size, every pass count", "why_tests_cant": "Schedules are unbounded and not controllable from a test.", "anchors": ["tracer/sampler.go: SampleWithCancel, sampleTile, samplePixel, tessellate"]}
{"id": "C14", "title": "The image is the mean of the samples, and sampling can be split arbitrarily", "statement": "After any sequence of Sample calls with pass counts n1..nk on a fresh sampler, every pixel of Image() equals the arithmetic mean of the image function over passes 0..N-1 (N the total), and the state equals that of a single Sample(N) (sample values not NaN).", "quantifier": "every image size, every deterministic image function without NaN, every list of pass counts (exact real arithmetic for the mean; bitwise for the splitting)", "why_tests_cant": "All sequences of calls; pass index hand-over between calls.", "anchors": ["tracer/sampler.go: Sample, samplePixel, imagef, memoize"]}
{"id": "C15", "title": "Invalid (NaN) samples do not influence the image", "statement": "Samples that evaluate to NaN are skipped: the pixel value equals the mean of the remaining valid samples.", "quantifier": "every sequence of samples with at least one valid sample", "why_tests_cant": "NaN samples are rare events of the renderer; the effect is a slightly darker pixel.", "anchors": ["tracer/sampler.go: samplePixel, imagef"]}
{"id": "C16", "title": "Anti-aliasing varies the sub-pixel position between passes", "statement": "With anti-aliasing on, the sub-pixel positions sampled for a pixel in different passes differ (they follow the anti-aliasing sequence).", "quantifier": "every pixel and every pair of different passes", "why_tests_cant": "The image function would have to log its arguments for all pixels and passes; visually a constant offset looks like a slightly shifted image.", "anchors": ["tracer/sampler.go: samplePixel", "tracer/ctx.go: Init, NewCtx, AA", "tracer/sequence/halton.go"]}
{"id": "C17", "title": "Pixel coordinates map linearly onto the documented [0,1] camera window", "statement": "IndexToCam never panics for pixel indices of the image, maps the image so that u,v lie in [0,1], u grows to the right and v grows upward, pixels are square with pitch 1/w, and the image centre maps to (0.5,0.5).", "quantifier": "every image size w,h >= 1 and every (fractional) pixel index in range", "why_tests_cant": "The range claim fails only for one class of aspect ratios.", "anchors": ["tracer/sampler.go: IndexToCam, linterp"]}
{"id": "C18", "title": "StdDev is the unbiased sample standard deviation", "statement": "For n>=2 valid samples per pixel, the variance computed from sum and sum of squares equals sum((x-mean)^2)/(n-1), hence is non-negative, and StdDev is its square root.", "quantifier": "every list of at least two samples (exact real arithmetic)", "why_tests_cant": "Algebraic identity over all sample lists.", "anchors": ["tracer/sampler.go: variancef, stddevf"]}
{"id": "C19", "title": "An anti-aliased sample stays inside its own pixel", "statement": "For (a,b) in [0,1)^2 the jittered position (u+PixelSize*(a-1/2), v+PixelSize*(b-1/2)) stays within the footprint of the pixel it is accumulated into.", "quantifier": "every image size, pixel and jitter value", "why_tests_cant": "Only a range of aspect ratios is affected.", "anchors": ["tracer/sampler.go: PixelSize, samplePixel, IndexToCam"]}
{"id": "C20", "title": "The frontmost surface always wins", "statement": "LightField shades the object whose reported hit distance is the smallest strictly positive one; hits that are NaN, zero or negative are ignored; among equal distances the last listed object wins; if nothing is hit the result is a black hit at +Inf.", "quantifier": "every list of objects and every combination of reported distances in IEEE binary64 including NaN, infinities and signed zeros", "why_tests_cant": "NaN comparisons are order sensitive.", "anchors": ["tracer/scene.go: intersectFrontmost, NewScene", "tracer/util.go: Frontmost, FrontT"]}
{"id": "C21", "title": "Shadow rays are blocked by opaque objects in between and only by those", "statement": "Occlude returns black iff some non-transparent material is reported strictly between 0 and len; otherwise the colour filtered once by every transparent object hit in between, independent of how the objects are ordered when the filters are multiplicative; lights never occlude.", "quantifier": "every object list, every hit distance and every length in IEEE binary64", "why_tests_cant": "Early return interacts with filter order.", "anchors": ["tracer/scene.go: Occlude"]}
{"id": "C22", "title": "Recursion depth is bounded and always restored", "statement": "Evaluating LightField from depth d <= RecursionDepth terminates, never evaluates at a depth above RecursionDepth, returns with the depth counter at exactly its old value, and returns black at the limit.", "quantifier": "every scene built from the modelled materials, every ray, every recursion limit >= 0", "why_tests_cant": "Mutual recursion through materials and media of unbounded nesting.", "anchors": ["tracer/scene.go: lightField", "tracer/ctx.go: CurrentRecursionDepth", "tracer/materials/*.go"]}
{"id": "C23", "title": "A pooled ray is never handed out while still in use", "statement": "While any light-field evaluation is in progress the rays in use by active callers are pairwise distinct and none of them is in the recycling pool; after the evaluation the number of rays in use is unchanged, and a ray obtained from the pool is zero-initialised.", "quantifier": "every scene of the modelled materials, every evaluation, every nesting depth", "why_tests_cant": "Double recycling corrupts an unrelated evaluation much later.", "anchors": ["tracer/ctx.go: Ray, PutRay, pool.get, pool.put", "tracer/materials/*.go: Shade"]}
{"id": "C24", "title": "Intersecting an object leaves the caller's ray untouched", "statement": "For every object built from primitives, CSG operators, transforms, bounds, trees and remaps, Intersect returns with the caller's ray start and direction bit-for-bit unchanged, although several operators temporarily overwrite it.", "quantifier": "every object expression of any nesting, every ray (any number type)", "why_tests_cant": "Every early-return path of every operator must restore the ray.", "anchors": ["tracer/objects/csg.go: andMarch, orMarch", "tracer/objects/transformed.go: Intersect", "tracer/objects/remap.go", "tracer/objects/bounded.go", "tracer/objects/tree.go"]}
{"id": "C25", "title": "Bounding-box test is exact", "statement": "For a ray that does not start on the surface of the box's planes, BoundingBox.intersects reports true iff some point of the ray at t>0 lies in the closed box, and the reported distance is that of the first surface crossing (entry, or exit when starting inside); this includes rays parallel to axes.", "quantifier": "every box with min<=max, every ray (exact arithmetic extended with infinities and NaN)", "why_tests_cant": "Axis-parallel and boundary rays produce infinities and NaN only on measure-zero inputs.", "anchors": ["tracer/objects/boundingbox.go: intersect, intersects"]}
{"id": "C26", "title": "A ray starting on a box face and pointing inward sees the box", "statement": "A ray that starts exactly on the surface of a bounding box and enters its interior is not pruned.", "quantifier": "every box, every ray start on its surface with inward direction", "why_tests_cant": "Measure-zero inputs.", "anchors": ["tracer/objects/boundingbox.go: intersect", "tracer/objects/bounded.go", "tracer/objects/transformed.go"]}
{"id": "C27", "title": "Hull bounding boxes are tight and reject NaN", "statement": "The box computed from a non-empty point list contains every point, has every face touched by some point, and the computation panics exactly when some coordinate is NaN.", "quantifier": "every non-empty list of binary64 points", "why_tests_cant": "NaN is invisible to ordinary min/max code.", "anchors": ["tracer/objects/boundingbox.go: boundingBoxFromHull, makeBoundingBox"]}
{"id": "C28", "title": "The bounding box of a transformed object encloses the transformed object", "statement": "If a box encloses an object then the box computed for the transformed object encloses the image of every point of the original box.", "quantifier": "every box, every affine transform, every point of the box (exact real arithmetic)", "why_tests_cant": "Continuum of points and transforms.", "anchors": ["tracer/objects/boundingbox.go: transformBounds", "tracer/objects/transformed.go"]}
{"id": "C29", "title": "Every object can be transformed", "statement": "Transformed(obj, t) with a finite transform t constructs an object, also for objects with unbounded extent (complements, backdrops).", "quantifier": "every object, every finite transform in IEEE binary64", "why_tests_cant": "Infinite extents are created by other operators.", "anchors": ["tracer/objects/transformed.go: Transformed", "tracer/objects/boundingbox.go: transformBounds, infBox", "tracer/objects/csg.go: Not"]}
{"id": "C30", "title": "Transformed objects are seen exactly where the transform puts them", "statement": "A point is Inside Transformed(o,t) iff its preimage is inside o; a ray's hit distance on Transformed(o,t) equals the hit distance of the inversely transformed ray on o, so hit points are the images of the original hit points; transforming twice equals transforming once with the composition.", "quantifier": "every object satisfying its own bounding box, every invertible transform, every ray and point (exact real arithmetic)", "why_tests_cant": "All transforms and all objects; the nested case is fused by a special-case constructor.", "anchors": ["tracer/objects/transformed.go: Transformed, Intersect, Inside"]}
{"id": "C31", "title": "CSG solids form the expected Boolean algebra of point sets", "statement": "Inside of And, Or, Not, Difference, Restrict and Hollow combinations is exactly the Boolean combination of the operands' Inside; double negation and De Morgan hold.", "quantifier": "every object expression and every point", "why_tests_cant": "Compositional over unbounded expressions.", "anchors": ["tracer/objects/csg.go"]}
{"id": "C32", "title": "CSG hits lie on a participating surface and on the correct side of the other solid", "statement": "Whenever And(a,b) (Or, Restrict, Difference) reports a hit at T>0 then the reported point is a hit point of one operand along the same line and is inside (outside) the other operand.", "quantifier": "every pair of operands, every ray (exact real arithmetic)", "why_tests_cant": "Marching accumulates offsets over an unbounded number of intermediate crossings.", "anchors": ["tracer/objects/csg.go: andMarch, orMarch, and.Intersect, or.Intersect"]}
{"id": "C33", "title": "CSG marching finds the first valid crossing", "statement": "If the surface crossings of each operand along the ray are more than Tiny apart and at most 100, And(a,b)/Or(a,b) report the smallest crossing that lies inside (outside) the other operand, and a miss if there is none.", "quantifier": "every pair of operands described by their sorted crossings, every ray", "why_tests_cant": "Unbounded number of crossings and interleavings of the two surfaces.", "anchors": ["tracer/objects/csg.go: andMarch, orMarch"]}
{"id": "C34", "title": "Quadric hits are the nearest surface point within bounds", "statement": "When Quadric/Sphere/Cylinder Intersect reports T>0, the point satisfies the surface equation, lies inside the bounds, the normal is the surface gradient, and no smaller positive ray parameter satisfies equation and bounds; when it reports no hit, no positive parameter (apart from grazing) does.", "quantifier": "every quadric, bounds and ray with non-zero quadratic coefficient (exact real arithmetic); degenerate coefficient treated separately", "why_tests_cant": "Root selection errors need specific root/bounds configurations.", "anchors": ["tracer/objects/quadric.go: Intersect, Sphere, Cylinder"]}
{"id": "C35", "title": "Box hits lie on a face and carry that face's unit outward normal", "statement": "In exact arithmetic Box.Intersect never panics; a hit at T>0 lies on the surface of the box, the normal is the outward axis unit vector of a face whose plane is within 1e-8 of the hit point, and a hit is reported iff the ray meets the box (ray start off the face planes).", "quantifier": "every box with min<=max and every ray with non-zero direction, also axis-parallel ones (exact arithmetic extended with infinities and NaN)", "why_tests_cant": "Edges and corners.", "anchors": ["tracer/objects/box.go: Intersect, normal"]}
{"id": "C36", "title": "Rendering a Box never crashes", "statement": "Box.Intersect does not panic for any finite box and ray in double precision.", "quantifier": "every finite box and ray in IEEE binary64", "why_tests_cant": "Needs coordinates where rounding exceeds an absolute tolerance.", "anchors": ["tracer/objects/box.go: normal, approx"]}
{"id": "C37", "title": "Triangle intersection is exact and interpolates vertex attributes", "statement": "For a non-degenerate triangle a hit is reported iff the line crosses the closed triangle at t>0; the hit point is the convex combination of the vertices with the computed weights, and the UV and shading normals are that same combination.", "quantifier": "every non-degenerate triangle, every ray not parallel to it (exact real arithmetic)", "why_tests_cant": "Continuum of inputs; edge rays.", "anchors": ["tracer/objects/mesh.go: face.Intersect"]}
{"id": "C38", "title": "Building a tree keeps every object exactly once", "statement": "The bounding-volume tree built over any non-empty list of objects terminates, stores each object in exactly one leaf, has at most 7 objects per leaf, and has logarithmic depth.", "quantifier": "every list of objects, every outcome of the (unstable) sort", "why_tests_cant": "List length and sort outcomes are unbounded.", "anchors": ["tracer/objects/tree.go: buildTree, Tree"]}
{"id": "C39", "title": "Tree intersection equals brute force over all members", "statement": "If every member is hit only by rays that hit its node boxes, the tree reports exactly the smallest positive hit distance among its members and the corresponding member's hit.", "quantifier": "every tree, every ray, every set of reported distances in IEEE binary64", "why_tests_cant": "Pruning errors depend on the relative order of box and hit distances.", "anchors": ["tracer/objects/tree.go: node.Intersect, tree.Intersect"]}
{"id": "C40", "title": "A tree or mesh that is missed reports a miss", "statement": "If no member of a Tree (or no face of a mesh) is hit by a ray, the tree reports no hit (T = 0).", "quantifier": "every non-empty tree and every ray", "why_tests_cant": "Only rays crossing the box but missing all members are affected, and only for some member counts.", "anchors": ["tracer/objects/tree.go: node.Intersect"]}
{"id": "C41", "title": "Tree bounds enclose all members", "statement": "The bounding box used for pruning by a Tree contains the bounding box of every member.", "quantifier": "every list of members with binary64 bounds", "why_tests_cant": "The violation is one float32 rounding error wide.", "anchors": ["tracer/objects/tree.go: boundingBoxF, node"]}
{"id": "C42", "title": "Parametric surfaces are triangulated without gaps", "statement": "For numU,numV >= 2 every face slot is filled exactly once with vertex indices in range, and every grid cell is covered by exactly its two triangles.", "quantifier": "every numU,numV >= 2", "why_tests_cant": "Index arithmetic over unbounded sizes.", "anchors": ["tracer/objects/mesh.go: Parametric"]}
{"id": "C43", "title": "Isosurface bisection brackets the surface", "statement": "If the function is positive at the near end and non-positive at the far end, the returned parameter is within the tolerance beyond a point where the function is positive and at which it is non-positive (a sign change), and bisection terminates.", "quantifier": "every function, every interval (exact arithmetic); termination also claimed for double precision", "why_tests_cant": "Arbitrary functions; termination depends on magnitude.", "anchors": ["tracer/objects/isosurface.go: bisect"]}
{"id": "C44", "title": "Projective camera geometry", "statement": "A projective pinhole camera's rays all start at the camera position, have unit direction, look along -Z at the image centre with +X right and +Y up, and span exactly the requested field of view between u=0 and u=1.", "quantifier": "every field of view in (0,pi), every (u,v) (exact real arithmetic)", "why_tests_cant": "Continuum of inputs.", "anchors": ["tracer/cameras/projective.go"]}
{"id": "C45", "title": "Depth of field focuses on one point per pixel", "statement": "With an aperture, all rays of one pixel pass through one common point whatever the lens sample, and that point lies in the plane at the configured focus distance.", "quantifier": "every lens sample, pixel, aperture and focus distance (exact real arithmetic)", "why_tests_cant": "Random lens samples.", "anchors": ["tracer/cameras/projective.go"]}
{"id": "C46", "title": "Environment-map camera covers all directions once", "statement": "EnvironmentMap rays are unit length, the image centre looks along -Z, u runs once around the horizon, v runs from -Y to +Y, and every direction other than the poles is seen by exactly one (u,v) in [0,1)x(0,1).", "quantifier": "every (u,v) and every direction (exact real arithmetic)", "why_tests_cant": "Continuum of inputs.", "anchors": ["tracer/cameras/environmentmap.go"]}
{"id": "C47", "title": "Moving a camera moves its rays rigidly", "statement": "Translate shifts ray starts only, YawPitchRoll turns rays about the camera's own position preserving lengths and angles, and any chain of calls amounts to the product of its rotations in call order and the sum of its translations.", "quantifier": "every camera, every chain of Translate/YawPitchRoll calls (exact real arithmetic)", "why_tests_cant": "Unbounded chains.", "anchors": ["tracer/cameras/withtransform.go"]}
{"id": "C48", "title": "Mirror reflection law", "statement": "The mirrored direction has the same length, makes the opposite angle with the unit normal, keeps the tangential component, and reflecting twice restores the direction.", "quantifier": "every direction and every unit normal (exact real arithmetic)", "why_tests_cant": "Continuum.", "anchors": ["tracer/materials/reflective.go"]}
{"id": "C49", "title": "Fresnel reflectance is a proper fraction", "statement": "For positive indices and an incidence angle without total reflection, the unpolarised reflectance is in [0,1] and is the same for light going either way through the surface.", "quantifier": "every pair of positive refractive indices, every cosine in [0,1] admitting refraction (exact real arithmetic)", "why_tests_cant": "Continuum; division by vanishing denominators.", "anchors": ["tracer/materials/reflective.go: fresnelReflection"]}
{"id": "C50", "title": "Refraction obeys Snell's law", "statement": "The transmitted ray direction is a unit vector in the plane of incidence on the far side of the surface with n1*sin(i)=n2*sin(t); total internal reflection happens exactly when no such direction exists.", "quantifier": "every unit direction and normal, every pair of positive indices (exact real arithmetic)", "why_tests_cant": "Continuum.", "anchors": ["tracer/materials/refractive.go"]}
{"id": "C51", "title": "Surfaces never create energy", "statement": "In a scene without lights whose materials have reflectivities/colours within [0,1], every light-field value lies in [0,M] when all emission and background values lie in [0,M], for every recursion depth.", "quantifier": "every scene of the modelled materials, every ray, every recursion depth and random sequence (exact real arithmetic)", "why_tests_cant": "Unbounded recursion, all material combinations.", "anchors": ["tracer/materials/*.go", "tracer/scene.go: lightField"]}
{"id": "C52", "title": "Point lights obey the inverse-square law", "statement": "A point light's sampled position is the light itself and the intensity at a target at distance d is power/(4 pi d^2) independent of direction.", "quantifier": "every target other than the light (exact real arithmetic)", "why_tests_cant": "Continuum.", "anchors": ["tracer/lights/pointlight.go"]}
{"id": "C53", "title": "Area light samples lie on the emitting surface and illuminate one side", "statement": "Rectangle and disk light samples lie within the light's extent, the intensity is never negative and zero for targets behind the emitting side.", "quantifier": "every light size and position, every random pair in [0,1]^2, every target (exact real arithmetic)", "why_tests_cant": "Random samples.", "anchors": ["tracer/lights/planar.go"]}
{"id": "C54", "title": "Exponential fog never fails its internal assertion and only ever blends", "statement": "The fogged path length computed for a ray is never negative (the assertion holds) for every ray, distance and height including infinities and NaN, and in exact arithmetic the result is a convex combination of the original colour and the fog colour.", "quantifier": "every binary64 ray, distance, height and density", "why_tests_cant": "Assertion failures need NaN/Inf combinations.", "anchors": ["tracer/media/expfog.go"]}
{"id": "C55", "title": "Fog length equals the geometric path length below the fog ceiling", "statement": "The fogged length is the length of the part of the ray between 0 and tMax that lies below the fog height.", "quantifier": "every ray, height and tMax", "why_tests_cant": "Axis-parallel rays are special.", "anchors": ["tracer/media/expfog.go: intersectHalfSpace, intersectIntervals"]}
{"id": "C56", "title": "Fog scattering positions follow the truncated exponential law", "statement": "For a random number u in [0,1) and interval length max the scattering position lies in [0,max] and is the exact quantile u of the exponential attenuation law truncated to [0,max].", "quantifier": "every u, density > 0 and max > 0 (exact real arithmetic)", "why_tests_cant": "Continuum.", "anchors": ["tracer/media/fog.go: randExpInterval"]}
{"id": "C57", "title": "Gamma encoding is monotone and stays within range", "statement": "LinearToSRGB maps every real to [0,1], is monotone, and is linear near black; encoded 16-bit channel values are within [0,65535] for every float input including NaN and infinities.", "quantifier": "every real input (exact), every conversion result of the float-to-int cast", "why_tests_cant": "Continuum plus unspecified conversions.", "anchors": ["imagef/colorf/color.go: LinearToSRGB, clip", "imagef/ppm/ppm.go: trunc"]}
{"id": "C58", "title": "sRGB decoding inverts sRGB encoding", "statement": "SRGBToLinear(LinearToSRGB(c)) = c for all c in [0,1].", "quantifier": "every c in [0,1] (exact real arithmetic)", "why_tests_cant": "The constant is off by a small amount only visible on comparison.", "anchors": ["imagef/colorf/color.go: LinearToSRGB, SRGBToLinear"]}
{"id": "C59", "title": "ASCII PPM output decodes to the encoded image", "statement": "A standard P3 reader applied to the bytes written by EncodeAscii16 yields the width, the height, the maximum 65535 and exactly the 16-bit channel values in row-major order.", "quantifier": "every rectangular image of at least one row and column", "why_tests_cant": "Round trip over all images.", "anchors": ["imagef/ppm/ppm.go: EncodeAscii16"]}
{"id": "C60", "title": "Binary PPM output decodes to the encoded image", "statement": "A standard P6 reader (big-endian 16 bit) applied to the bytes written by Encode48BE yields width, height, 65535 and the channel values in row-major order.", "quantifier": "every rectangular image of at least one row and column", "why_tests_cant": "Round trip over all images.", "anchors": ["imagef/ppm/ppm.go: Encode48BE"]}
{"id": "C61", "title": "Encoders report write failures", "statement": "If the underlying writer fails at any point, the encoder returns a non-nil error.", "quantifier": "every image, every point of failure of the writer", "why_tests_cant": "Every failure point.", "anchors": ["imagef/ppm/ppm.go: EncodeAscii16, Encode48BE"]}
{"id": "C62", "title": "Image storage: pixels are independent and copies are deep", "statement": "In an image made by MakeImage different pixels never share storage, writing a pixel is read back and affects no other pixel, and Copy shares no storage with its source and equals it.", "quantifier": "every image size, every sequence of writes", "why_tests_cant": "Aliasing through the shared backing array.", "anchors": ["imagef/image.go: MakeImage, Copy, Size", "imagef/grey.go"]}
{"id": "C63", "title": "Bloom convolution is the mathematical convolution", "statement": "AddConvolution adds to every destination pixel exactly the normalised kernel-weighted sum of thresholded source pixels within the image, so a bright pixel away from the border adds exactly amplitude times its excess brightness in total.", "quantifier": "every image, every non-empty odd kernel with non-zero sum, amplitude and threshold (exact real arithmetic)", "why_tests_cant": "Index clipping at borders for all sizes.", "anchors": ["imagef/post/convolution.go: AddConvolution", "imagef/post/params.go"]}
{"id": "C64", "title": "Post-processing yields a valid image and leaves its input unchanged", "statement": "ApplyTo with zero radii returns the input image unchanged in value, and with any radius returns finite pixels for finite input.", "quantifier": "every finite image and every radius >= 0", "why_tests_cant": "Small radii are special.", "anchors": ["imagef/post/params.go: ApplyTo", "imagef/post/convolution.go: starKernel"]}
{"id": "C65", "title": "Bilinear texture lookup is total and convex", "statement": "A bilinear texture lookup never indexes outside the image for any finite u,v, is periodic in u and v, returns the stored colour at pixel positions, and each channel lies between the minimum and maximum of the four neighbours.", "quantifier": "every non-empty image, every u,v (binary64 for index safety, exact reals for values); infinite coordinates included in the safety claim", "why_tests_cant": "Index rounding at extreme coordinates.", "anchors": ["texture/interpolation.go"]}
{"id": "C66", "title": "Nearest texture lookup is in range on the unit square", "statement": "Nearest-neighbour lookup never indexes outside the image for u,v in [0,1].", "quantifier": "every non-empty image, every binary64 u,v in [0,1]", "why_tests_cant": "Rounding at the upper border.", "anchors": ["texture/interpolation.go"]}
{"id": "C67", "title": "Checkerboard alternates everywhere", "statement": "Moving by one cell along either axis swaps the two materials, moving by two cells (or diagonally by one) keeps it, including across negative coordinates.", "quantifier": "every point of the plane (exact real arithmetic)", "why_tests_cant": "Negative coordinates and modulo.", "anchors": ["tracer/materials/*.go", "texture/*.go"]}
{"id": "C68", "title": "Spec defaults always give a renderable image", "statement": "InitDefaults leaves explicitly set values alone, fills in non-zero pass count, recursion depth, width and height, keeps the 16:9 aspect ratio when one dimension is given, and is idempotent.", "quantifier": "every Spec with non-negative fields", "why_tests_cant": "Integer division at small sizes.", "anchors": ["api/spec.go: InitDefaults"]}
{"id": "C69", "title": "The render server never closes a cancel channel twice and serves one bake at a time", "statement": "For every interleaving of concurrent bake, cancel and preview requests, no cancel channel is closed twice, and at most one bake runs on a sampler at a time.", "quantifier": "every number of requests and every interleaving of their atomic steps", "why_tests_cant": "Interleavings.", "anchors": ["api/server.go: handleBake, handleCancel, handlePreview"]}
{"id": "C70", "title": "Server bakes accumulate passes for an unchanged view and restart for a new one", "statement": "After k completed consecutive bakes of the same view the returned image has 1+2+..+k passes; changing the view restarts at one.", "quantifier": "every history of sequential bake requests", "why_tests_cant": "Unbounded histories.", "anchors": ["api/server.go: bake"]}
{"id": "C71", "title": "The viewer never displays a stale bake and has at most one bake in flight", "statement": "Whenever a baked image is displayed, it was requested for the current view; at most one bake request is outstanding.", "quantifier": "every sequence of user and server events", "why_tests_cant": "Asynchronous event orders.", "anchors": ["cmd/bruteray-view/main.go"]}
{"id": "C72", "title": "Viewer state stays in its legal ranges", "statement": "Camera pitch stays within +-90 degrees, debug-normals mode within 0..2, and the bake resolution divisor within {8,4,2,1}, non-increasing until the view changes.", "quantifier": "every sequence of user events", "why_tests_cant": "Unbounded event sequences.", "anchors": ["cmd/bruteray-view/main.go"]}
{"id": "C73", "title": "Local rendering performs the requested number of passes", "statement": "renderLocal performs passes 1,2,3,... until at least NumPass are done: the total is the smallest triangular number >= NumPass (not NumPass itself).", "quantifier": "every NumPass", "why_tests_cant": "All values of NumPass.", "anchors": ["api/render.go: renderLocal"]}
{"id": "C74", "title": "Saving an image never destroys an existing file when encoding fails", "statement": "If encoding fails (including an unknown extension) the target file is neither created nor modified.", "quantifier": "every image, file name and failure point of the encoder", "why_tests_cant": "Failure injection at each point.", "anchors": ["api/render.go, imagef: save functions"]}
{"id": "C75", "title": "PLY files round-trip", "statement": "Parsing a PLY text that lists n vertices and m triangles or quads yields exactly those vertices and the triangles (each quad split into two), ignoring comments and extra header lines.", "quantifier": "every vertex list and face list, every placement of ignored header lines", "why_tests_cant": "All files.", "anchors": ["tracer/objects/ply/parser.go"]}
{"id": "C76", "title": "PLY parser accepts files without a final newline", "statement": "A PLY file whose last line is not newline-terminated parses to the same result as the newline-terminated file.", "quantifier": "every valid file", "why_tests_cant": "Needs a file without final newline; editors add it.", "anchors": ["tracer/objects/ply/parser.go: readLine"]}
{"id": "C77", "title": "OBJ files parse to the listed vertices and per-material faces", "statement": "Parsing an OBJ text yields vertices in order and, per material, its faces in order with indices shifted to start at 0; lines of ignored kinds have no effect; indices below 1 are rejected.", "quantifier": "every sequence of lines", "why_tests_cant": "All files.", "anchors": ["tracer/objects/obj/parser.go"]}
{"id": "C78", "title": "Parsers report malformed input as errors", "statement": "Both mesh parsers return an error (never crash, never hang) for every malformed input, and accepted faces refer to existing vertices.", "quantifier": "every byte string", "why_tests_cant": "All inputs.", "anchors": ["tracer/objects/ply/parser.go", "tracer/objects/obj/parser.go"]}
{"id": "C79", "title": "Rendering the same scene twice gives the same image", "statement": "Two complete renderings of the same image function with the same number of passes end in the same image.", "quantifier": "every image function, including those that draw random numbers at any recursion depth", "why_tests_cant": "Different seeds are only observable by comparing renderings made at different times, bit by bit.", "anchors": ["tracer/ctx.go: NewCtx, Generate2", "tracer/sampler.go: Sample"]}
{"id": "C80", "title": "Every recursion depth ends the evaluation", "statement": "Evaluating a light field ends for every recursion depth a scene can be given.", "quantifier": "every scene, ray and recursion depth (an int)", "why_tests_cant": "Only negative depths are affected; the code compares for equality.", "anchors": ["tracer/scene.go: lightField"]}
{"id": "C81", "title": "Isometric camera geometry", "statement": "For each view axis all rays of an isometric camera are parallel, point along the negative axis, start 4096 in front of the origin, and their starts map the unit square affinely and right-handedly onto a square of the requested size.", "quantifier": "every axis, size and (u,v) (exact real arithmetic)", "why_tests_cant": "Continuum of inputs.", "anchors": ["tracer/cameras/isometric.go"]}
{"id": "C82", "title": "An evaluation returns the light arriving along the ray", "statement": "lightField returns, without panic, a colour that the frontmost surface sends back along the ray according to its material, where the light arriving at that surface is given by the same description with one level less, down to black at the recursion limit.", "quantifier": "every scene without media whose hits have a normal and a material, every ray, depth, random sequence and nesting of materials (exact real arithmetic)", "why_tests_cant": "Unbounded recursion, all combinations of materials, random directions.", "anchors": ["tracer/scene.go: lightField, intersectFrontmost, Occlude", "tracer/materials/*.go"]}
{"id": "C83", "title": "Matte surfaces are lit by the cosine law", "statement": "The direct light on a matte surface is the sum over the lights of intensity times cosine for the lights in front of the surface that are not occluded; indirect light is added once from a direction on the visible side, without counting the lights again; both are multiplied with the reflectivity.", "quantifier": "every scene, light, point and normal (exact real arithmetic)", "why_tests_cant": "Continuum.", "anchors": ["tracer/materials/matte.go"]}
{"id": "C84", "title": "Sunlight arrives from the given direction with the given strength", "statement": "Samples of a sun lie on a disk of the given angular diameter perpendicular to the given yaw and pitch at distance 1e6, and the intensity at a target is the given brightness times r^2 cos/d^2, independent of the diameter.", "quantifier": "every brightness, diameter, yaw, pitch, target and sample (exact real arithmetic)", "why_tests_cant": "Continuum; composed of four transforms.", "anchors": ["tracer/lights/planar.go: SunLight", "tracer/lights/transformed.go"]}
{"id": "C85", "title": "Rendering never panics", "statement": "Evaluating a light field does not panic for scenes made by the constructors.", "quantifier": "every scene and every ray", "why_tests_cant": "Needs a ray through the bounding box of a tree that misses all its members, with nothing behind.", "anchors": ["tracer/scene.go: lightField", "tracer/objects/tree.go: node.Intersect"]}
{"id": "C86", "title": "Loaded pictures are flipped and converted channel by channel", "statement": "Load returns an image of the size of the decoded picture in which row y is the picture's row h-1-y, every channel being the colorspace function of the 16-bit value divided by 65535, in storage of its own.", "quantifier": "every size, every picture, every colorspace function (binary64)", "why_tests_cant": "All pictures of all sizes; the heap effects are invisible to tests.", "anchors": ["imagef/load.go: decode"]}
{"id": "C87", "title": "The fisheye mapping is equidistant and centred", "statement": "MapFisheye maps a direction to the point of the unit disk in the same azimuth whose distance from the centre is proportional to the angle between the direction and the vertical axis.", "quantifier": "every non-vertical direction, every correct atan2 (exact real arithmetic)", "why_tests_cant": "Continuum.", "anchors": ["texture/uvmapper.go"]}
{"id": "C88", "title": "A saved PPM file is complete or an error is reported", "statement": "If SavePPM returns no error, the file contains the whole encoded image.", "quantifier": "every image, every amount of free disk space", "why_tests_cant": "A full disk at every byte position, combined with buffering.", "anchors": ["api/render.go: savePPM"]}
{"id": "C90", "title": "Animation frames go to their own files", "statement": "Rendering an animation of n frames performs exactly NumPass passes per frame, stores frame i under its five-digit number and the last frame as last.jpg, and touches no other file.", "quantifier": "every number of frames, every scene function, every file system", "why_tests_cant": "Unbounded frame counts; file-name collisions.", "anchors": ["api/animate.go: Animate"]}
{"id": "C93", "title": "A view moves the camera of the scene", "statement": "Applying a View turns the camera by yaw and pitch about its own position, then shifts it by the view's position; image size and debug mode follow the view, and everything else of the scene is unchanged.", "quantifier": "every view with positive size, every scene with a camera", "why_tests_cant": "Continuous angles and positions, any base camera.", "anchors": ["api/view.go: View.ApplyTo"]}
{"id": "C89", "title": "A bake response shows the requested view", "statement": "The image returned for a bake request was sampled for the view in that request, and is not read while another request is writing to it.", "quantifier": "every interleaving of bake, cancel and preview requests", "why_tests_cant": "Needs a view change at one particular moment of another request.", "anchors": ["api/server.go: renderView"]}
{"id": "C91", "title": "Cancelling a bake stops it", "statement": "After its cancel channel has been closed, a bake stops sampling and fails with an error; the server accepts another bake.", "quantifier": "every interleaving of bake and cancel requests", "why_tests_cant": "Timing of the cancel request.", "anchors": ["api/server.go: renderView, handleCancel", "tracer/sampler.go: SampleWithCancel"]}
{"id": "C96", "title": "A request that cannot be rendered does not block later ones", "statement": "After a bake request whose view makes the renderer panic, later bake requests are served as usual.", "quantifier": "every bad view, every sequence of later requests", "why_tests_cant": "Failure in the middle of a critical section, which net/http hides.", "anchors": ["api/server.go: prepareBakery"]}
{"id": "C92", "title": "The viewer survives every user input", "statement": "No sequence of key, mouse, size and paint events, and no reply of the server, makes the viewer panic.", "quantifier": "every sequence of user events and server replies", "why_tests_cant": "Needs thousands of events; float64 overflow reaches encoding/json.", "anchors": ["cmd/bruteray-view/main.go: fetchHTTP, isometricZoom, handleLifecycleEvent"]}
{"id": "C97", "title": "Left alone, the viewer ends up showing the full-resolution picture", "statement": "From any reachable state, unless paused or dragging, four turns of the loop without user events in which the bakes succeed end with the anti-aliased full-size image of the current view on the screen, and it stays there.", "quantifier": "every reachable state, every number of further turns", "why_tests_cant": "Depends on which bakes were cancelled or pending before.", "anchors": ["cmd/bruteray-view/main.go: run, goBakeAndSend, handleBakery"]}
{"id": "C94", "title": "Mesh files show the faces they list, or nothing at all", "statement": "An object read from a PLY or OBJ file, with transforms applied from left to right, is hit exactly at the nearest point of the listed faces (for OBJ: of all materials, with the material of that face), whatever order the map of materials is walked in; malformed files, undefined materials, missing faces and indices without vertex end the process or panic, and are never shown wrong.", "quantifier": "every file text, list of transforms, ray in general position, order of map iteration", "why_tests_cant": "All files and rays; map order is random.", "anchors": ["tracer/objects/mesh.go: PlyFile, ObjFile, plyObj, applyTransform", "tracer/objects/ply/parser.go", "tracer/objects/obj/parser.go"]}
{"id": "C95", "title": "Meshes, rectangles and disks are seen exactly where their faces are", "statement": "Intersecting a ray with a triangle mesh reports the smallest positive distance at which the ray meets one of the faces, with the material of the mesh, texture coordinates and normal interpolated from the corners of the face that is hit; if the ray meets no face, no surface is reported closer than the distance at which a tree gives up (see C40). A parallelogram, a horizontal rectangle and a disk given by centre and size are hit exactly in their points, with the unit normal of the plane and coordinates running from 0 to 1 across the shape.", "quantifier": "every mesh of any size without degenerate faces, every ray not parallel to a face and not starting on an axis-parallel plane through a corner; every rectangle and disk of positive size and every ray not parallel to its plane or inside a border plane (exact real arithmetic)", "why_tests_cant": "A wrong corner index or width and depth swapped only shows for rays through the affected part of shapes without symmetry.", "anchors": ["tracer/objects/mesh.go: Mesh, MeshWithUV, Triangle, Quadrilateral, RectangleWithVertices, Rectangle, Disk, face.Intersect", "tracer/objects/tree.go: Tree, node.Intersect", "tracer/objects/csg.go: Restrict"]}
{"id": "C98", "title": "The bounding box of a solid contains the solid and all its hits", "statement": "Bounds() of any boolean combination of solids contains every point for which Inside is true, provided the boxes of the primitives do; and every hit at positive distance lies in the bounds of the object that reports it, for every combination of quadrics and boxes by And, Or, Not, Difference, Restrict, Hollow, Remap, WithMaterial and Bounded.", "quantifier": "every expression of any nesting; every point that is not NaN (binary64) and every ray (exact real arithmetic)", "why_tests_cant": "Bounds only matter where an object is pruned; union and intersection of boxes agree on nested samples.", "anchors": ["tracer/objects/csg.go: And, Or, Not, Difference, Restrict, intersectBounds, unionBounds", "tracer/objects/bounded.go: Bounded", "tracer/objects/quadric.go: Bounds, Inside", "tracer/objects/box.go: Bounds, Inside"]}
{"id": "C99", "title": "Remap and WithMaterial change nothing but local coordinates and material", "statement": "Through any stack of Remap and WithMaterial wrappers an object keeps its Inside, its Bounds and the distance and normal of every hit; the local coordinates are the outermost remapping applied to the hit point, and the material is that of the outermost WithMaterial.", "quantifier": "every stack of wrappers of any depth around every object that leaves the ray unchanged, every ray", "why_tests_cant": "Remapping the old local coordinates instead of the hit point is invisible on objects centred at the origin.", "anchors": ["tracer/objects/remap.go", "tracer/objects/mesh.go: withMaterial"]}
{"id": "C100", "title": "Every mesh hit has a usable shading normal", "statement": "The shading normal of every corner of a mesh is the unit vector along the sum of the unit normals of the non-degenerate faces that meet there, so that every hit on a mesh has a finite normal.", "quantifier": "every mesh of any size whose face indices are in range", "why_tests_cant": "Requires the particular meshes in which normals cancel, and degenerate faces among good ones.", "anchors": ["tracer/objects/mesh.go: calcNormals, face.Intersect"]}
{"id": "C101", "title": "Objects can be placed by their centre, base or size, again and again", "statement": "Center, CenterTop, CenterBottom, CenterFront and CenterBack are the midpoint of the bounding box and of its faces; WithCenter and WithCenterBottom translate the object so that this point is where it was asked for, moving its box and all its points by the same offset; Scale and Rotate keep the centre where it is and move every point as asked; AndNot and Remove take one solid out of another. This holds after any number of earlier transformations.", "quantifier": "every object with a finite bounding box (the centres also for boxes that reach to infinity), after any sequence of invertible affine transformations; every target point, scale factor other than 0, axis and angle (exact real arithmetic)", "why_tests_cant": "Repeated transformations are collapsed into one; a box recomputed from an inflated box, or a transformation composed in the wrong order, only shows after several steps.", "anchors": ["api/object.go: Center, CenterBottom, CenterTop, CenterBack, CenterFront, WithCenter, WithCenterBottom, Scale, ScaleAt, Rotate, RotateAt, AndNot, Remove", "tracer/objects/boundingbox.go: Center, CenterBottom, CenterTop, CenterBack, CenterFront"]}
{"id": "C102", "title": "ScaleToSize makes an object fit the given size", "statement": "After ScaleToSize(m) the object is centred where it was and no side of its bounding box exceeds m.", "quantifier": "every object with a finite bounding box that is not a single point, every m > 0", "why_tests_cant": "Cubes and spheres, on which the largest side is the width, behave as expected.", "anchors": ["api/object.go: ScaleToSize"]}
{"id": "C103", "title": "Turning and moving an object does not inflate its bounding box", "statement": "Any sequence of rotations, translations and other rigid motions leaves the object with a bounding box no side of which exceeds the diagonal of the original box, centred at the image of the original centre.", "quantifier": "every object with a finite bounding box, every sequence of rigid motions of any length (exact real arithmetic)", "why_tests_cant": "Boxes computed from boxes grow with every step, a factor that sequences of one or two motions do not reveal.", "anchors": ["tracer/objects/transformed.go: Transformed, transformBounds"]}
{"id": "C104", "title": "A sample depends only on its random sequences, not on what was rendered before", "statement": "The colour of a sample does not depend on recycled rays, their contents or the statistics left behind by earlier samples in the same context; the sample returns every ray it takes. With at most two levels of recursion and no lens it does not depend on the time-seeded generator either.", "quantifier": "every scene, camera, sample position and pair of idle contexts with the same sequences; any arithmetic", "why_tests_cant": "Contexts are reused for thousands of samples; a stale ray shows up only for particular sequences of samples on particular workers.", "anchors": ["tracer/scene.go: ImageFunc, lightField", "tracer/ctx.go: Ctx, Ray, PutRay, pool", "tracer/sampler.go: SampleWithCancel"]}
{"id": "C105", "title": "A finished image shows the mean light along the camera's rays", "statement": "Rendering any scene with any camera of the package always completes, and every pixel of the result is the mean over all passes of the light arriving along the camera ray through that pixel's sample point, as described by the materials, lights and exact surfaces of the scene.", "quantifier": "every scene of sound objects without media, every camera built and moved with the API, every image size, number of workers, schedule and split of the passes into calls (exact real arithmetic)", "why_tests_cant": "Combines geometry, shading, cameras, sampling and concurrency; tests compare a few images with earlier images, up to a tolerance.", "anchors": ["tracer/sampler.go: SampleWithCancel, samplePixel, Image", "tracer/scene.go: ImageFunc, LightField", "tracer/cameras/*.go"]}
{"id": "C106", "title": "No pixel is brighter than the emitters", "statement": "In a scene lit only by luminous surfaces, with materials that reflect no more light than they receive, no channel of any pixel of the finished image is negative or exceeds the brightest emitter.", "quantifier": "every scene without light sources, with passive materials and media, every camera, image size, schedule and number of passes (exact real arithmetic)", "why_tests_cant": "Violations (energy gain at some recursion depth) are gradual and hidden in noise; images are only compared with earlier images.", "anchors": ["tracer/sampler.go: samplePixel, Image", "tracer/scene.go: lightField", "tracer/materials/*.go"]}
{"id": "C107", "title": "The random numbers of the passes are even, jointly for the first two surfaces", "statement": "Over the passes of a pixel, the four numbers used at the first and at the second surface of a path fill the unit cube evenly: the mean of every integrable function of them tends to its integral, and every cell of every grid gets its share of the passes, whatever shift the pixel was given.", "quantifier": "every pixel, every table of shifts, every (Riemann) integrable function of the four numbers, discontinuous or not; any two coprime bases for one sequence", "why_tests_cant": "A correlation between the two sequences biases images by a little everywhere; no finite number of passes shows a limit.", "anchors": ["tracer/ctx.go: NewCtx, Init, Generate2", "tracer/sequence/sequence.go: halton.Init, halton.Generate2", "tracer/sequence/halton.go: Halton"]}
{"id": "C108", "title": "Pixels converge to the integral of the light", "statement": "As passes are added, in any number of calls, every pixel tends to the integral of its samples over the random numbers they are computed from; for paths of at most two surfaces these samples are exactly the light seen along the camera ray (C105).", "quantifier": "every scene of sound objects without media, camera without lens, image size, schedule and split of the passes into calls (exact real arithmetic); every integrable sample function", "why_tests_cant": "A limit; tests stop after a few passes and allow a tolerance.", "anchors": ["tracer/sampler.go: SampleWithCancel, samplePixel, Image", "tracer/ctx.go: Init, Generate2", "tracer/scene.go: ImageFunc"]}
{"id": "C109", "title": "Scattered directions follow the cosine law, lens points are uniform", "statement": "Over the passes, the mean of any continuous light over the directions generated for a matte surface tends to the integral over the hemisphere above it, weighted with the cosine of the angle to the normal and divided by pi; the mean over the points generated on a disk tends to the mean over the disk.", "quantifier": "every unit normal, continuous light and continuous function on the disk, any orthonormal frame, any evenly distributed sequence of numbers (as in C107)", "why_tests_cant": "A wrong density (for example uniform instead of cosine) still yields unit vectors above the surface, which is all a test of single directions can see.", "anchors": ["tracer/sequence/mappings.go: CosineSphere, UniformDisk"]}
{"id": "C110", "title": "A matte surface under a sky tends to its irradiance", "statement": "A pixel showing a matte surface tends to the reflectivity there times the cosine-weighted mean of the light over the hemisphere above the surface, on the side that is seen; in particular for a ball of any size under any sky.", "quantifier": "every scene without lights and media, two surfaces deep, in which the light arriving at the surface is a continuous function of the direction; every ball, sky, camera without lens and pixel showing the ball from outside (exact real arithmetic)", "why_tests_cant": "Joins sampling, camera, geometry, scattering and shading; tests compare images with earlier images of the same code.", "anchors": ["tracer/materials/matte.go: Matte", "tracer/sampler.go: SampleWithCancel", "tracer/scene.go: lightField", "tracer/sequence/mappings.go: CosineSphere"]}
{"id": "C111", "title": "The watcher renders the latest version, and only one at a time", "statement": "While bruteray-watch runs, at most one rendering of the watched program runs at any moment, in whatever order edits, the ends of renderings and the steps of the watcher interleave. After the last edit, once the watcher has gone round, the program running (or having run last) is the one built from the text saved last; if that text does not compile, nothing runs.", "quantifier": "every sequence of edits, ends of renderings and steps of the watcher, in any order", "why_tests_cant": "Races between saving, compiling and killing depend on timing and show up rarely.", "anchors": ["cmd/bruteray-watch/main.go: watch, rerun, compile"]}
{"id": "C112", "title": "The watcher goes on watching", "statement": "bruteray-watch keeps watching as long as it is not stopped: no way of saving the file and no failing rendering ends it.", "quantifier": "every sequence of edits, removals, failures and steps of the watcher", "why_tests_cant": "Needs an editor that replaces the file exactly between two polls, or an operating system that refuses to start a process.", "anchors": ["cmd/bruteray-watch/main.go: watch, rerun"]}
{"id": "C113", "title": "halton prints as many points as asked", "statement": "The command halton -n N prints N points, the points number i, i+s, i+2s, ... of the Halton sequence with the given bases.", "quantifier": "all bases from 2, strides from 1, first indices and numbers of points from 0 below 2^53", "why_tests_cant": "Default flags print the right number; only the combination of a stride and a first index shows the mistake.", "anchors": ["cmd/halton/halton.go: main"]}
{"id": "C114", "title": "A sphere does not shadow itself", "statement": "In double precision, a ray leaving the point where a sphere was hit, after that point was lifted off the surface along its normal as the shading code does, does not hit the same sphere again: neither a shadow ray towards a light above the surface nor a scattered ray into the hemisphere above it.", "quantifier": "all spheres, rays and lights of finite coordinates", "why_tests_cant": "Self-shadowing (shadow acne) appears on single pixels, for particular roundings and angles of incidence; a picture has to be looked at closely.", "anchors": ["tracer/objects/quadric.go: Intersect, Sphere", "tracer/materials/matte.go: Shade", "tracer/ray.go: At, Tiny", "geom/vec.go: Normalized"]}
{"id": "C115", "title": "Normalized returns unit vectors", "statement": "In double precision the length of v.Normalized() is one and each of its components is the exact one, up to a few roundings.", "quantifier": "all finite vectors but zero", "why_tests_cant": "The error must be bounded for all vectors; overflow and underflow appear only at extreme magnitudes.", "anchors": ["geom/vec.go: Normalized, Normalize"]}
{"id": "C116", "title": "Bloom does not depend on the resolution of the picture", "statement": "Bloom adds to every pixel the light above the threshold of its surroundings, weighted by a function of the distance in the picture measured in units of the radius: a bell curve for Gaussian, squared Bessel rings of each wavelength for Airy, eight rays fading with the square of the distance for star bloom; the weights add up to the amplitude, and the range is cut at 5, 8 and 1 radii.", "quantifier": "all images, thresholds, amplitudes, positive pixel sizes and radii (stars of at least 4 pixels)", "why_tests_cant": "The kernels are sampled from formulas with pixel sizes in the denominator; comparison with golden images at one resolution does not notice wrong units.", "anchors": ["post/params.go: ApplyBloom, applyGaussianBloom, applyAiryBloom, applyStarBloom", "post/convolution.go"]}
{"id": "C117", "title": "Frontmost and FrontT choose the nearest distance in front", "statement": "The result is one of the two arguments, strictly positive and not farther than the other if that one is positive too; zero (an empty record) if neither is positive. This holds for NaN and infinite arguments in either position.", "quantifier": "all pairs of hit records and of double precision numbers", "why_tests_cant": "Comparisons with NaN depend on the order of the operands.", "anchors": ["tracer/util.go: Frontmost, FrontT"]}
{"id": "C118", "title": "CheckRay and CheckHit reject malformed rays and hits, and only these", "statement": "CheckRay accepts a ray exactly if its direction has length one up to the tolerance, so that every ray made with Normalized is accepted; CheckHit panics exactly if some number of a hit is NaN.", "quantifier": "all rays and hit records in double precision", "why_tests_cant": "NaN makes comparisons false, and sums of infinities make NaN.", "anchors": ["tracer/util.go: CheckRay, CheckHit", "geom/vec.go: Normalized, Len2"]}
{"id": "C119", "title": "Trees divide their objects across the longest extent, in halves", "statement": "Every inner node of a tree divides the objects below it in two halves of equal number (up to one) such that no object of the left half lies beyond one of the right half, compared along the axis in which their common bounding box is longest.", "quantifier": "all lists of objects with finite bounding boxes, in double precision; all correct sorting functions", "why_tests_cant": "A tree split along a wrong axis or unsorted gives the same picture, only slowly.", "anchors": ["tracer/objects/tree.go: NewTree, buildTree, argMax", "tracer/objects/boundingbox.go"]}
{"id": "C120", "title": "Fog veils the light of surfaces", "statement": "In a scene with media, a camera ray sees the light of the first surface weakened by exp(-density*length) where length is the part of the ray below the ceiling of the fog, plus 1-exp(-density*length) of the ambient colour (ExpFog), or of the light that the lights send, past occluding and filtering objects, to one point of that part of the ray, at which the drawn fraction of the fog is passed (Fog). Several media act one after the other. Reflected, refracted and scattered rays see no fog.", "quantifier": "all scenes of objects with materials and proper normals, all media, all rays, recursion depths from 1", "why_tests_cant": "The fog point is random and the formula is inexact for no simple scene; horizontal rays, empty intervals and lights in the fog are special cases.", "anchors": ["tracer/media/fog.go: Filter, randExpInterval", "tracer/media/expfog.go: Filter, intersectHalfSpace, intersectIntervals", "tracer/scene.go: LightField"]}
{"id": "C121", "title": "Fog samples average to the scattered light", "statement": "As passes are added, a pixel that looks through Fog at a surface of one colour tends to that colour times exp(-density*length) plus the integral along the fog of density*exp(-density*t) times the light arriving at t.", "quantifier": "all densities, fog lengths, continuous light distributions; all renderings in any number of calls", "why_tests_cant": "A limit. A wrong weight or distribution of the sampled distance changes brightness smoothly.", "anchors": ["tracer/media/fog.go: Filter, randExpInterval", "sampler/sampler.go", "tracer/sequence/halton.go"]}
{"id": "C122", "title": "Grid draws lines, Pan moves and ScaleUV stretches", "statement": "Grid shows its second texture exactly within the given distance of the multiples of one over the pitch, in either direction, its first texture elsewhere. Pan shows at (u+deltaU, v+deltaV) what the original shows at (u, v); ScaleUV shows it at (u*scaleU, v*scaleV).", "quantifier": "all textures, positive pitches, widths, shifts, scales other than zero, coordinates of both signs", "why_tests_cant": "Negative coordinates and the far edge of a line are rarely in a picture.", "anchors": ["texture/assets.go: Grid", "texture/texture2d.go: Pan, ScaleUV"]}
{"id": "C123", "title": "The viewer's keys move along the picture", "statement": "In the interactive viewer the keys Right, Space and Up move the camera by 5 cm along three perpendicular directions, and these are the directions in which the picture extends: the ray through the screen point (u, v) of the picture that the server draws goes u-1/2 steps of Right, v-1/2 steps of Space and 1/(2 tan(fov/2)) steps of Up, whatever the yaw and pitch. Left, Down and their letter twins go the opposite way, and the mouse wheel does what the arrow keys do. Up moves the camera towards the centre of the picture in every scene.", "quantifier": "Any field of view, position, yaw and pitch; any scene whose camera is Projective(fov).Translate(p).", "why_tests_cant": "The viewer has no tests; its matrix and the one applied by the server are computed in different packages.", "anchors": ["cmd/bruteray-view/main.go:301-340", "cmd/bruteray-view/main.go:469-477", "api/view.go:23-41", "tracer/cameras/withtransform.go:26-46"]}
{"id": "C124", "title": "Mouse and axis keys of the viewer", "statement": "Dragging with the left button turns the camera so that the picture follows the mouse: sideways about the vertical, up and down about the axis through the ears, by 1/200 radian per pixel. In no session does the camera's up direction point below the horizon. The keys X, Y and Z show the scene along their axis without perspective, and return to perspective if it is shown that way already; such pictures ignore position, yaw and pitch, always have a positive size, and one turn of the wheel doubles or halves the visible area. The key N cycles through the three ways to show normals.", "quantifier": "Any session, any state of the viewer, any distance dragged.", "why_tests_cant": "Sessions are unbounded sequences of events; the clamping of the pitch depends on everything dragged before.", "anchors": ["cmd/bruteray-view/main.go:342-423", "cmd/bruteray-view/main.go:452-467", "api/view.go:23-41", "api/spec.go:53-87"]}
{"id": "C125", "title": "Area lights look like bright surfaces facing down", "statement": "Looking at a RectangleLight or DiskLight shows exactly the rectangle or disk it was made from: a ray that crosses it going up sees its brightness, a ray that crosses it going down or misses it sees black. Indirect light never sees it.", "quantifier": "Every size, position, brightness and ray that does not run inside a plane through the border or parallel to the lamp, distance below 9e99 (exact arithmetic with infinities).", "why_tests_cant": "The lamp is a mesh restricted by a CSG operation with an object of infinite extent; continuum of rays.", "anchors": ["tracer/lights/planar.go:11-18", "tracer/lights/planar.go:65-82", "tracer/lights/planar.go:120-134", "tracer/materials/twosided.go", "tracer/scene.go:137-168"]}
{"id": "C126", "title": "Transformed lights shine like the transformed surface", "statement": "Every light can be transformed, and the light that a transformed area light sends to a point is that of the transformed surface: the drawn point is the image of a point of the surface, and the intensity is brightness times the new area times the cosine to the new normal over pi times the squared distance.", "quantifier": "Every light, affine transformation, target point and random number; also for repeated transformations.", "why_tests_cant": "Continuum of transformations; the tests render two pictures.", "anchors": ["tracer/lights/transformed.go:23-49", "tracer/lights/planar.go:84-99"]}
{"id": "C127", "title": "The viewer's window always shows the current picture at its current size", "statement": "After every turn of the viewer's loop the last thing drawn in the window is the current picture, scaled to the current size of the window, and every turn in which the window is exposed, resized or changes its lifecycle stage draws again. So no resize, and no picture that arrives late or not at all, leaves an outdated window behind.", "quantifier": "Every sequence of events, bakes that finish in any order, and replies of the server, of any length.", "why_tests_cant": "Depends on the whole history of events, replies and two flags that eight handlers set; the viewer has no tests.", "anchors": ["cmd/bruteray-view/main.go:97-165", "cmd/bruteray-view/main.go:286-299", "cmd/bruteray-view/main.go:425-446", "cmd/bruteray-view/main.go:480-508"]}
{"id": "C128", "title": "Under lights, renderings of matte surfaces tend to the rendering integral over the lamps", "statement": "As passes are added, a pixel showing a matte surface tends to (E + A) times its reflectivity. A is the cosine average of the light from the hemisphere. E is the direct light: over a rectangle or disk light, the integral over the lamp's area of its brightness times the cosine at the surface, times the cosine at the lamp, over pi and the squared distance; for a point light, its power times the cosine over 4 pi and the squared distance. So the random points on lamps, their area and fall-off factors, the shadow offset, the two meanings of 'objects' (with and without lights) and the scattered rays add up to the physical value without counting any light twice.", "quantifier": "Exact real arithmetic. Any lights, objects and textures in the general form (given the direct light as a function of two numbers). Spheres of any size and place with any texture, seen by any lensless camera from any point outside, under rectangle and disk lights of any size, place and colour, or under any continuous sky with a point light.", "why_tests_cant": "A statement about a limit of infinitely many passes and about an integral with no closed form in general; tests compare a few passes with stored pictures that include the bias.", "anchors": ["tracer/lights/planar.go:60-138", "tracer/lights/pointlight.go:7-26", "tracer/materials/matte.go", "tracer/scene.go:60-152", "tracer/sampler.go"]}
{"id": "C129", "title": "Triangles have no holes in double precision", "statement": "A ray that goes through a rectangle (two triangles) hits it, at the right distance, also when all numbers are rounded to double precision. More precisely: a ray through a triangle's plane at a point whose barycentric weights are all above a margin hits the triangle, at a distance and with texture coordinates that differ from the exact ones by a bounded rounding error; if a weight is below minus the margin, or the point is behind the ray, it is missed.", "quantifier": "IEEE binary64, including overflow and underflow. Every triangle and start with coordinates up to 2^k for any k from -100 to 100, every direction of length near 1 that is not too parallel to the triangle (scalar product with the triangle's normal at least 2^(2k-i), i from 0 to 8).", "why_tests_cant": "Holes are rays in a continuum that fail by a rounding error; random rays almost never find them.", "anchors": ["tracer/objects/mesh.go:267-362", "tracer/objects/mesh.go:96-134"]}
{"id": "C130", "title": "Comparing pictures tells how much they differ", "statement": "test.Diff, which decides whether a picture test passes, is the mean deviation of the channels on a scale from 0 to 1, 0 exactly for equal pictures, the same in both directions; the RMS error that convergence reports record is the root mean square of the errors of the pixels. So a passed test bounds the error of every pixel.", "quantifier": "All pictures of any size and contents, all tolerances.", "why_tests_cant": "The tests rely on these functions; nothing tests them.", "anchors": ["tracer/test/test.go:38-47", "tracer/test/test.go:143-165", "tracer/test/convergence.go:56-76"]}
{"id": "C131", "title": "The shapes, lights and materials of test scenes are what they stand for", "statement": "The minimal sphere of package test is the sphere of package objects. Its sheet is the horizontal plane of the given height. Its point light does not shadow itself although it is shown as a small ball. Its checkers are squares of side 1/2 in alternating colours. Its normal shading shows the cosine to the viewer, in red on the back.", "quantifier": "All sizes, places, rays and texture coordinates.", "why_tests_cant": "The tests use them as the reference.", "anchors": ["tracer/test/objects.go:14-93", "tracer/test/materials.go:1-161"]}
{"id": "C132", "title": "Floors are not hit by the rays that leave them", "statement": "Where a ray hits a horizontal rectangle, scattered rays and shadow rays start from the hit point, offset once or twice by Tiny along the normal. Despite rounding that point is strictly off the rectangle, on the side the rays leave to, and a ray that leaves it does not hit the rectangle again. So floors show no speckles of self-shadow.", "quantifier": "IEEE binary64, with float32 bounding boxes. Every rectangle with sides from 2^-20 to 256 within 128 of the origin, every ray from within 1024 that is not parallel to it, from above or below, every outgoing direction.", "why_tests_cant": "Speckles are single rays that fail by rounding errors; whether a floor is affected depends on the last bits of its height.", "anchors": ["tracer/objects/mesh.go:96-134", "tracer/objects/mesh.go:267-362", "tracer/objects/tree.go:59-126", "tracer/objects/tree.go:184-253", "tracer/materials/matte.go", "tracer/ray.go"]}
{"id": "C133", "title": "Scattered directions are unit vectors on the right side of the surface", "statement": "The direction in which a matte surface scatters a ray, for numbers u, v and a normal of length one, has length one and the cosine sqrt(1 - v) with the normal, and is never NaN, also when all numbers are rounded to double precision. So a ray scattered by a ball or a floor, from the point matte surfaces scatter from, does not hit the ball or floor again.", "quantifier": "IEEE binary64. All normals of length one up to 2^-40, all u in [0, 1], all v in [0, 1), any sine and cosine with the stated accuracy of their squares' sum; balls of diameter 1 to 512 within 256 of the origin and floors as in C132, hit from any place and direction stated there.", "why_tests_cant": "The frame about the normal is built from its smallest component and the height is the root of a difference that may come out negative; failures are confined to a few of 2^106 samples.", "anchors": ["tracer/sequence/mappings.go:13-57", "tracer/materials/matte.go:54-97"]}
{"id": "C134", "title": "Rays of cameras have length one in double precision", "statement": "The direction of every ray that a camera makes has length one up to rounding errors that grow in proportion to the number of times the camera has been turned, and is never NaN. So the rays of a camera turned up to a thousand times pass tracer.CheckRay, which stops the program otherwise.", "quantifier": "IEEE binary64. All three cameras with any parameters that are neither huge nor tiny, any image position, any random numbers, any sequence of translations and of up to 10^9 rotations by any finite angles, any sine and cosine of the stated accuracy.", "why_tests_cant": "Errors add up over the calls and differ from angle to angle; a test tries a few angles once.", "anchors": ["geom/affinetransform.go:66-120", "geom/affinetransform.go:136-181", "geom/matrix.go", "tracer/cameras/projective.go", "tracer/cameras/environmentmap.go", "tracer/cameras/isometric.go", "tracer/cameras/withtransform.go:26-61", "tracer/ray.go: CheckRay"]}
{"id": "C135", "title": "Rotations by quarter turns are exact in double precision", "statement": "Yaw, Pitch and Roll by multiples of 90 degrees map directions without any rounding error, as the comments of util.Sin and util.Cos intend. At any other angle the base vectors are mapped exactly to the computed sine and cosine.", "quantifier": "IEEE binary64. All directions with components up to 2^900, all angles, any sine and cosine of the stated accuracy.", "why_tests_cant": "That a product or a sum of rounded numbers is exact for all operands cannot be sampled.", "anchors": ["geom/affinetransform.go:66-120", "util/util.go:88-108"]}
{"id": "C136", "title": "Height fields are hit at their surface", "statement": "A ray that enters the bounding box of an isosurface above the surface and leaves it below hits it where the surface is, up to the step of the bisection (2^-20), with the surface's texture coordinates and normal, and at the first crossing if the height along the ray falls monotonically. Rays that miss the box miss the surface. The inside of the body is what lies below the surface. Heights outside of [0, 1] stop the program.", "quantifier": "Exact arithmetic with infinities. All box sizes, all height functions with values in [0, 1] that are continuous along the ray, all starting points off the planes of the box, all directions.", "why_tests_cant": "Height functions are arguments; the tests try two.", "anchors": ["tracer/objects/isosurface.go", "tracer/objects/tree.go:256-286"]}
{"id": "C137", "title": "Mirrors and glass keep directions at length one in double precision", "statement": "The direction of a reflected ray has the length of the incoming one and the opposite angle to the normal, and the direction of a refracted ray has length one and continues on the far side, up to a bounded number of rounding errors. Errors add up over chains of reflections, no faster. So rays reflected up to 4000 times, and rays that glass reflects and refracts, pass tracer.CheckRay, which stops the program otherwise; in particular they are never NaN.", "quantifier": "IEEE binary64. All directions of length about one, all normals that are neither huge nor tiny, chains of up to 10^9 mirrors, all pairs of refractive indices from 1/4 to 4.", "why_tests_cant": "Errors build up over chains of bounces and near the angle of total reflection, where the square root of a difference of nearly equal numbers is taken.", "anchors": ["tracer/materials/reflective.go:81-83", "tracer/materials/refractive.go:28-79", "geom/vec.go", "tracer/ray.go: CheckRay"]}
{"id": "C138", "title": "Fresnel's shares of the light lie between 0 and 1 in double precision", "statement": "The reflected and the transmitted share of the light that glass and coated surfaces compute are numbers from 0 to 1 which add up to 1, also when all numbers are rounded to double precision. So such surfaces do not emit light, do not swallow it and do not make a pixel NaN.", "quantifier": "IEEE binary64. All pairs of refractive indices from 1/4 to 4 for glass, from 1 to 4 for coatings, all directions, all normals that are neither huge nor tiny.", "why_tests_cant": "A share above 1 by a rounding error, or a NaN at a grazing angle, shows up for single rays.", "anchors": ["tracer/materials/reflective.go:50-70", "tracer/materials/refractive.go:54-62"]}
{"id": "C139", "title": "Scenes lit by their surfaces have no NaN and no infinite pixels", "statement": "In a scene whose surfaces emit at most 2^k and reflect at most what they receive, every ray returns a colour with channels from 0 to 2^k: never NaN, never infinite, never negative and not brighter than the brightest surface by as much as one rounding error. So every sample is counted and every pixel of a rendering lies in the same range.", "quantifier": "IEEE binary64. All scenes without lamps and glass: any objects, also faulty ones, any nesting of flat, matte, mirror, transparent, two-sided and blended materials and any number of fogs, any recursion depth, any camera and random numbers, up to 2^53 passes, k from 0 to 900, any math.Exp with values from 0 to 1 on negative numbers.", "why_tests_cant": "One NaN among billions of samples of a rendering is not seen by tests that compare averages; the range of rounded sums is a property of all summands.", "anchors": ["tracer/scene.go:86-152", "tracer/materials/", "tracer/media/expfog.go", "tracer/sampler.go"]}
{"id": "C140", "title": "Exposure values scale colours exactly", "statement": "Color.EV(n) multiplies every channel by 2^n without any rounding error, so an exposure can be undone without changing a bit; exposures add up. The named colours consist of the channels of their names: Red+Green+Blue is White, a filter keeps the channels that it has in common with the light, and White filters nothing, whatever the colour.", "quantifier": "IEEE binary64 for all colours and whole exposure values for which the result is in range; all real exposure values in exact arithmetic. Any math.Pow that is exact for powers of two.", "why_tests_cant": "That no bit changes, for every colour and exposure, cannot be enumerated.", "anchors": ["imagef/colorf/color.go:10-19", "imagef/colorf/color.go:55-90"]}
{"id": "C141", "title": "Lamps cannot make a NaN or an infinite pixel", "statement": "In a scene under point lights, a ray that starts in the scene returns a colour whose channels are numbers from 0 to a fixed power of two, although the light of a lamp is divided by a squared distance: the surface points, normals, scattered, mirrored and shadow rays that the tracer computes with rounding errors all stay good enough. So every sample counts and every pixel of a rendering is an ordinary number.", "quantifier": "IEEE binary64. Balls with diameters from 1 to 64 and any nesting of flat, matte, mirror, transparent, two-sided and blended materials, up to 2^18 point lights at least 1/1000 away from the surfaces, inside or outside, any coloured surfaces and fogs, any recursion depth up to 800, projective and environment cameras, also with a lens, moved and turned up to 1000 times, all image sizes, anti-aliasing, up to 2^53 passes, all random numbers from 0 to 1. In general: any objects whose reported hits lie in the scene and away from the lamps, with a normal that can be normalized.", "why_tests_cant": "A NaN needs a coincidence of rounding errors in a scattered direction, a square root or a distance; a test meets only those of the rays that it happens to shoot.", "anchors": ["tracer/scene.go:62-152", "tracer/lights/pointlight.go", "tracer/materials/", "tracer/objects/quadric.go", "tracer/sampler.go"]}
{"id": "C142", "title": "SRGBSlope is the slope of the sRGB curve", "statement": "SRGBSlope(c) is the derivative of LinearToSRGB at c, for every c between 0 and the point where the curve is cut off at 1.", "quantifier": "every such c (exact real arithmetic)", "why_tests_cant": "A derivative is a limit; the step in the curve is narrower than the values that a test would try.", "anchors": ["imagef/colorf/color.go:109-127"]}
{"id": "C143", "title": "Gray and Max measure the brightness of a colour", "statement": "Color.Gray() is the mean of the channels: Gray(v).Gray() is v, and the result never leaves the range of the channels. Color.Max() is the brightest channel.", "quantifier": "IEEE binary64, all colours without NaN for Max, all colours with channels from 0 to 2^900 for the range of Gray; the mean itself in exact real arithmetic.", "why_tests_cant": "Rounding of a sum and a quotient by three differs from value to value.", "anchors": ["imagef/colorf/color.go:31-33", "imagef/colorf/color.go:92-105"]}
{"id": "C144", "title": "Images are the mean of their samples up to rounding", "statement": "After any sequence of Sample calls, every pixel of Image() is the mean of the samples of that pixel, up to an error that depends on the number of passes and the size of the samples alone: (n+3) * 2^-53 times the mean magnitude.", "quantifier": "IEEE binary64; every image function that keeps no memory, every size up to 2^53, every split of 1 to 2^26 passes into Sample calls, all samples of magnitude up to 2^900, each channel.", "why_tests_cant": "Rounding errors add up over millions of passes; no test runs that long or knows the exact mean.", "anchors": ["tracer/sampler.go:199-201"]}
{"id": "C145", "title": "StdDev() is the standard deviation of the samples, up to rounding", "statement": "After any number of passes every pixel of StdDev() is a number, and its square is the sample variance of the samples of that pixel up to rounding. A picture that is the same in every pass has deviation about zero.", "quantifier": "IEEE binary64; every image function that keeps no memory, every size up to 2^53, every split of up to 2^26 passes into Sample calls, all samples of magnitude up to 2^400, each channel.", "why_tests_cant": "Whether the difference of two rounded sums of squares comes out below zero depends on the last bits of the samples.", "anchors": ["tracer/sampler.go:203-221"]}
{"id": "C146", "title": "Bilinear lookups interpolate in double precision", "statement": "The colour a bilinear texture returns is the mix of the four pixels around the requested position, up to a rounding error of 24 * 2^-53 times the largest possible channel; the position itself is off by at most 3 * 2^-53 of the picture's width or height, also across the border where the picture repeats. No channel is NaN or infinite.", "quantifier": "IEEE binary64; every picture of at least one pixel with sides up to 2^53 and channels of magnitude up to 2^k for any k from -900 to 900, every finite texture coordinate, however large, small or negative.", "why_tests_cant": "Coordinates just below an integer, where adding 1 rounds up to the next period, occur once in 2^50 lookups.", "anchors": ["texture/interpolation.go:43-92", "util/util.go:45-48"]}
{"id": "C147", "title": "Pixels keep their order and place in double precision", "statement": "IndexToCam maps the centre of every pixel to within 2^-53 of its horizontal position and within 20 * 2^-53 * (1 + h/w) of its vertical one. Pixels further right have larger u, pixels further down smaller v, and pixels never leave the window: u lies strictly between 0 and 1, and so does v unless the picture is higher than wide.", "quantifier": "IEEE binary64; every picture of 1 to 2^51 pixels per side for the accuracy, of up to 2^47 pixels for width plus height for the order and the window, every pixel.", "why_tests_cant": "For most sizes some quotients round up and some down, so neighbours could collide or fall outside for sizes no test has tried.", "anchors": ["tracer/sampler.go:223-261"]}
{"id": "C148", "title": "Boxes do not shadow themselves in double precision", "statement": "A hit on a box is lifted off the face along the normal by Tiny before a shadow ray starts, and by twice Tiny before a scattered ray starts. In binary64 arithmetic no such ray that leaves on the outer side of the face ever hits the same box again, however the first ray came and however flat the second one leaves.", "quantifier": "all boxes with ordered bounds of magnitude at most 2^20, all rays (any start and direction) whose intersection reports a hit in front, all finite outgoing directions with a positive product with the normal, exact or as computed", "why_tests_cant": "Self-shadowing shows up as single dark pixels for particular combinations of box, view and light; it depends on rounding of the hit point, on the tolerance of box.normal and on infinities in the slab test, so no finite set of images rules it out.", "anchors": ["tracer/objects/box.go:46-70", "tracer/objects/boundingbox.go:104-138", "tracer/materials/matte.go:59,88", "geom/vec.go:20-27"]}
{"id": "C149", "title": "Cylinders with caps are the solid between two lids", "statement": "A point is inside CylinderWithCaps exactly if it is closer to the vertical axis than half the diameter and closer to the central plane than half the height. Every reported hit lies on the mantle between the lids, with the normal pointing away from the axis, or on a lid inside the rim, with the vertical outward normal (away from the rim), and carries the material.", "quantifier": "all diameters, heights, centres and points; for hits, all rays along no coordinate plane whose intersection reports a hit in front", "why_tests_cant": "The solid is put together from a cylinder with a slightly enlarged bounding box and a box; mistakes in the order of the box sizes or in the marching show only for particular proportions and views.", "anchors": ["tracer/objects/quadric.go:27-61", "tracer/objects/csg.go:13-58", "tracer/objects/box.go:11-66"]}
{"id": "C150", "title": "IsNaN tells exactly the vectors that have no length", "statement": "Vec.IsNaN is true exactly if the squared length, the length and the product of the vector with itself are NaN in binary64; infinite vectors have an infinite length.", "quantifier": "all vectors of binary64 numbers, including infinities, NaN and numbers whose squares overflow or underflow", "why_tests_cant": "Whether sums of squares of infinite, huge or denormal components can turn into NaN cannot be settled by trying values.", "anchors": ["geom/vec.go:38-60,117-119"]}
{"id": "C151", "title": "Rays through a cylinder with caps hit it", "statement": "A ray that starts outside and passes through the inside of CylinderWithCaps reports a hit, not later than any point of the solid. (This fails along the four vertical lines where the mantle touches the box that cuts it: there the ray passes through unseen.)", "quantifier": "all diameters, heights and centres, all rays from outside the box that pass through the solid; for the true part, rays along no coordinate plane that cross the mantle off the four lines and off the rims", "why_tests_cant": "The missing lines have no width, so a test view finds them only if a pixel lies exactly on one; away from them, completeness is a statement about all rays.", "anchors": ["tracer/objects/quadric.go:59-61", "tracer/objects/csg.go:13-58", "tracer/objects/boundingbox.go:59-66"]}
{"id": "C152", "title": "Solids cut out of balls and boxes are seen where rays first cross their surface", "statement": "For every solid made by And, Or and Difference, in any nesting, from at most 50 Spheres and BoxWithBounds, or from such parts Transformed by invertible affine maps (which count twice): Inside tells exactly its points; a ray whose crossings with the surfaces of the parts (and with the bounding boxes of transformed parts) are more than Tiny apart hits the first point of the surface of the solid ahead of it, in the material of the part that point belongs to, and misses if there is none. If moreover no two parts touch the ray in a common surface point, the ray cannot enter or leave the solid unseen. Without that condition it can: a ball cut with itself is invisible.", "quantifier": "every CSG term over balls, boxes and their affine images, every ray with no zero direction component, also in the coordinates of the parts", "why_tests_cant": "Terms of any shape and depth; marching restarts inside marching. Tests use a few pairs of objects.", "anchors": ["tracer/objects/csg.go: andMarch, orMarch, And, Or, Difference, Not", "tracer/objects/quadric.go: Sphere", "tracer/objects/box.go: BoxWithBounds", "tracer/objects/transformed.go: Transformed"]}
{"id": "C153", "title": "Solids cut out of many parts are seen", "statement": "A ray that passes through a union of separate boxes, cut with another box, hits it, however many boxes there are.", "quantifier": "every number and position of the boxes, every ray", "why_tests_cant": "The limit on marching only shows with more than a hundred crossings, which no test scene has.", "anchors": ["tracer/objects/csg.go: andMarch, orMarch"]}
{"id": "C154", "title": "Frac lies in [0,1)", "statement": "util.Frac(x), documented as x % 1 with python-like modulus, lies in [0,1) for every finite x.", "quantifier": "every finite binary64 number, also negative ones", "why_tests_cant": "The exception needs a negative argument closer to 0 than half a rounding step below 1; the example test uses multiples of 0.1.", "anchors": ["util/util.go: Frac"]}

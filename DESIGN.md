# Formal model of bruteray: design

The code under study is the Go ray tracer in `/repo`. It is read as text only and
is never built or run here. The model and the proofs are in Rocq/Coq 8.16.1 under
`rocq/theories`. `properties.jsonl` lists the properties C01, C02, ...;
`MANIFEST.json` maps each property to the theorems that settle it;
`seeded/LOG.jsonl` records the attempts to break the theorems with wrong programs.

## 1. How numbers are modelled

Almost every function of the repository computes with `float64`. The model
functions are written **once**, polymorphic over a record of number operations
(`Num F`, file `Num.v`), and are then read at three instances:

| instance | carrier | rounding | Inf/NaN | used for |
|---|---|---|---|---|
| `R` | Coq's real numbers | none | none | algebra and geometry: what the formulas mean |
| `XR` | reals + `+Inf`, `-Inf`, `NaN` | none | yes (IEEE rules, zero is unsigned) | code that divides by a zero component on purpose |
| `B64` | Flocq `binary_float 53 1024` | IEEE round-to-nearest-even | yes, signed zeros | everything about rounding, NaN, comparison logic, panics, witnesses |

A theorem at `R` speaks about the exact-arithmetic reading of the code: it does
not bound rounding errors. Every property says which reading it uses. A theorem at
`B64` speaks about the float64 semantics itself (amd64, no fused multiply-add;
NaN payloads are not distinguished). `B64` instances run under `vm_compute`, so
the witnesses in `_refuted` theorems are executions of the model.

`math.Sin/Cos/Exp/Log/Pow/Atan` are the mathematical functions at `R`; at `B64`
they are not modelled (no theorem at `B64` uses them, or the theorem quantifies
over an arbitrary function in their place). `math.Sqrt`, `math.Floor`, `math.Modf`
and int/float conversions are exact IEEE operations at `B64`.

Go `int` is `Z`; overflow at 2^63 is not modelled except where said.

## 2. How the rest is modelled

* Pointers to mutable values become returned values. Where aliasing or restoring a
  value *is* the property (rays mutated during Intersect, the ray pool, image backing
  arrays), the model threads the mutable state explicitly.
* Panics are explicit error values.
* Loops are structural recursion, folds, or recursion on explicit fuel which returns
  an error value when exhausted; theorems show the fuel is enough.
* Goroutines are a small-step state machine over explicit interleaved steps
  (worker pool, HTTP handlers, viewer event loop).
* External behaviour (sort.Slice, file system, writers that can fail, strconv's float
  parsing) is a function or relation quantified over in the theorem.

## 3. Trusted base

* the Coq 8.16.1 kernel (and `vm_compute`);
* the axioms printed by `Print Assumptions` under each theorem. These can only be the
  standard library's: `ClassicalDedekindReals.sig_forall_dec`,
  `ClassicalDedekindReals.sig_not_dec`,
  `FunctionalExtensionality.functional_extensionality_dep`, `Classical_Prop.classic`
  (all through Coq's real numbers, Flocq and Coquelicot). Integer, list and state-machine
  theorems are closed under the global context;
* the reading of the Go source: each model definition cites file and lines.

## 4. Refuted properties

Some properties users rely on are false of the code. For these the full statement stays
in `properties.jsonl`, a theorem named `..._refuted` exhibits the failing input, and where
sensible a companion theorem proves the part that does hold. In `MANIFEST.json` these
are `partial` with a note starting with `REFUTED`.

## 5. Plan per property

| property | modelled | how it is proved |
|---|---|---|
| C01-C04 | `geom` vectors, matrices, affine transforms, function by function | R: `ring`/`field`, induction over the argument list of ComposeLR; rotations via `cos^2+sin^2=1` |
| C05, C06 | `sequence.Halton` with exact arithmetic | radical inverse specification, induction on digits, bijection on blocks |
| C07 | the same loop at B64 | Flocq: monotonicity of rounding against the integer above the quotient |
| C08 | `util.Frac`, `halton.Generate2` at B64 | Flocq: x - floor x is exact for x >= 0 |
| C09, C10 | `sequence.CosineSphere`, `UniformDisk` | R: orthonormal frame, case split on argMin |
| C11, C12 | `tessellate`, `divUp` | Z/list: counting, div/mod arithmetic |
| C13 | worker pool as a transition system over loads/stores of pixels | invariants: pixel ownership from C11; confluence to the sequential result |
| C14, C15, C18 | `Sampler` accumulators | induction over passes and calls; R identities; C15 refuted by witness |
| C16 | `Ctx.Init`, `AA` sequence, `samplePixel` | invariant: the AA sequence is never re-seeded, so the offset is constant (refutes C16) |
| C17, C19 | `IndexToCam`, `PixelSize` at R and B64 | linear arithmetic; witnesses for portrait/landscape images |
| C20, C21 | `intersectFrontmost`, `Frontmost`, `FrontT`, `Occlude` | order laws of IEEE comparison, induction over the object list |
| C22, C23, C51 | `lightField` with a syntax of materials and media, ray pool | induction on remaining depth and on material terms |
| C24 | all object `Intersect` methods in state-passing style | induction over object terms |
| C25-C29 | `boundingbox.go` | XR case analysis; B64 for NaN/Inf; convexity for transformed hulls |
| C30-C33 | `transformed.go`, `csg.go` | exact arithmetic; induction over march steps; crossing-list specification |
| C34-C37 | `quadric.go`, `box.go`, `mesh.go` | real algebra, polynomial identities; B64 witness for the Box panic |
| C38-C41 | `tree.go` | permutation by well-founded induction; order laws; B64 witnesses |
| C42 | `Parametric` | index arithmetic in Z |
| C43 | `bisect` | fuelled loop: invariant at R; non-termination witness at B64 |
| C44-C47 | `cameras` | R, trigonometric identities |
| C48-C50 | `reflective.go`, `refractive.go` | R |
| C52, C53 | `lights` | R |
| C54-C56 | `media` | B64 for assertion freedom, XR for the interval, R for blending |
| C57, C58 | `colorf` | R, `Rpower` monotonicity; refutation of the round trip |
| C59-C61 | `ppm.go` over byte lists, writers that may fail | codec round trip; counterexample for swallowed write errors |
| C62 | images as windows of a flat store | index injectivity |
| C63, C64 | `convolution.go`, `params.go` | sums over index ranges; B64 witness for the empty star kernel |
| C65-C67 | `texture` | B64 index safety, R values |
| C68, C93 | `Spec.InitDefaults`, `View.ApplyTo` | Z; R for the moved camera |
| C69, C70, C89, C91, C96 | HTTP server state machine | invariant over all interleavings; witness trace for overlap after cancel |
| C95, C98, C99, C100 | meshes, rectangles and disks as sets of triangles; boxes of solids; wrappers | exact arithmetic for geometry, binary64 for boxes and for the counterexample |
| C101-C103 | `api/object.go`, `boundingbox.go` on any chain of transformations | induction over the chain: the box is that of the one composed map; interval arithmetic for its extent; binary64 witness for ScaleToSize |
| C104-C106, C13 and C79 for scenes | a whole `SampleWithCancel` over a scene (`RenderModel.v`) | relational logic over two contexts; worker pool whose samples are any permitted colours; composition with C82, C83, C12-C14 |
| C107-C110 | Halton sequences as points of the unit cube, renderings of ever more passes | counting residues (Chinese remainder theorem) for boxes, Darboux sums; Riemann integrals and substitution (Coquelicot) for the cosine law; composition with C104, C105 |
| C111, C112 | `bruteray-watch` with its user and its renderings | state machine; invariants, distance to the settled state; counterexample histories |
| C113 | `cmd/halton` | B64 |
| C114 | spheres and the rays leaving their surface | B64; bounds of the accumulated rounding errors in exact arithmetic, witness by computation |
| C115 | `Normalized` | B64; as C114 |
| C116 | the kernels of `post/params.go` and their convolution | R: the exact kernel as a function of distance, from C63; index arithmetic for the star |
| C117 | `Frontmost`, `FrontT` | B64: case analysis, asymmetry of `<` |
| C118 | `CheckRay`, `CheckHit` (`CheckModel.v`) | B64: rounding errors as in C115; witnesses |
| C119 | `NewTree`, `buildTree` (`TreeModel.v`) against `SplitSpec.v` | B64: structural induction, order lemmas |
| C120 | `Filter` of both media and `LightField` against an inductive description of veils (`FogSpec.v`) | R: ray-pool invariant, as C82 |
| C121 | the same, with `SampleWithCancel` | R: substitution in the integral over the drawn number, equidistribution (C107) |
| C122 | `Grid`, `Pan`, `ScaleUV` (`TextureModel.v`) | R |
| C123, C124 | keys and mouse of the viewer (`ViewerModel.v`), with the view applied by the server (`ApiModel.v`) | R |
| C125 | area lights as seen by rays: mesh, `Restrict`, two-sided material, `newScene`, `lightField` (`SceneModel.v`) | xr |
| C126 | sampling of transformed lights (`SceneModel.v`) | R |
| C127 | the loop of the viewer (`ViewerModel.v`) | any |
| C128 | lamps, materials, scene and samplers together (`LightModel` parts of `SceneModel.v`, `RenderModel.v`) | as C107-C110; the light of a lamp as an iterated integral (substitution for rectangle and disk), lamps as sound objects |
| C129 | triangles (`faceCoords`, `faceIntersect`) and rectangles of `TreeModel.v` in binary64 | forward error analysis in units of 2^k (`TriFloat.v`), Cauchy-Schwarz for the size of the normal; the hole is found by evaluation |
| C130 | `diffShots`, `passes`, `rmsError` of `TestModel.v` | sums over rectangles as in C14; binary64: a sum of natural numbers below 2^53 divided by a positive number is 0 only for 0 |
| C131 | test sphere, sheet, light, checkers and normal shading of `TestModel.v` | comparison with `objects.Sphere`, plane geometry, `Zfloor` |
| C132 | rectangles of `TreeModel.v` with float32 boxes, `flipTowards`, `vmadd` and `tiny` as in `matteShade`, in binary64 | exact zeros in two components of the normal, error bounds for the distance and the height of the hit (`RectFloat.v`), rounding to float32; the floor at 70.3 is found by evaluation |
| C133 | `uniformDisk`, `minAxis`, `cosineFrame`, `cosineSphere` of `SeqModel.v` in binary64, over any `Trig b64` with the accuracy of `ScatterSpec.v` | error bounds for the disk, the height and the frame (`CosFloat.v`); a product with a number below 1 is rounded below the other factor, so the height is never the root of a negative number (`CosSharp.v`); C114 and C132 for the rays |
| C134 | `rotate`, `rotationMatrix`, `yaw`, `pitch`, `roll`, `yawPitchRoll` of `GeomModel.v` and the cameras of `SceneModel.v` in binary64, over any `Trig b64` with the accuracy of `TurnSpec.v` | a matrix whose columns are orthonormal within e maps unit vectors to unit vectors within e plus rounding; the rotations about base vectors, products and inverses of such matrices (`RotFloat.v`), the rays of the three cameras (`CamFloat.v`) |
| C135 | the same, `uSin`, `uCos` | every product has a factor 0, 1 or -1 and every sum a zero operand, so nothing is rounded (`TurnFloat.v`) |
| C136 | `isoSurface`, `bisectLoop` and the bounding box of `ObjModel.v` over `xr`, height functions as parameters | the sign change between the ends of the stretch inside the box is kept by bisection (`IsoProofs.v`) |
| C137 | `reflect`, `refract`, `transmitted` of `SceneModel.v` in binary64 | error bounds for the scalar products, then the algebra of the exact law with the errors as remainders (`MirrorFloat.v`) |
| C138 | `fresnelR`, `refractR`, `fresnelReflection` in binary64 | rounding is monotone, so the quotient of difference and sum of nonnegative numbers stays within [-1, 1] |
| C139 | `lightField`, `shade`, the media and the sampler in binary64 | range [0, 2^k] is closed under the operations, by round-half-even at the top of the range |
| C140 | `ev`, `clev`, `clmul3`, `cladd` (ToneModel.v) | multiplication by a power of two is exact in binary64; the sign of zero is followed too |
| C141 | `lightField`, `shade`, `lightAt`, point lights, cameras and the sampler in binary64 | assertions over the pool of rays; the length of a direction stays within 2^-30 + depth·2^-40 of one; hits of balls stay near the sphere |
| C142 | `srgbSlope`, `linearToSRGB` (ColorModel.v) | R: derivatives of both parts of the curve; the step at the joint |
| C143 | `gray`, `clgray`, `clmax` (ColorModel.v) | binary64: representable bounds; order laws; witness by computation |
| C144 | `imagef`, `sampleCalls` (SamplerModel.v), `pixel_samples` (MeanSpec.v) | binary64: the accumulator is the left fold of the samples; relative error of sums by induction |
| C145 | `variancef`, `stddevf` (SamplerModel.v) | binary64: error of both sums relative to the sum of squares; witnesses by computation |
| C146 | `bilinear`, `warp`, `bilin` (TextureModel.v) | binary64: fractional parts are exact, absolute errors of products and sums |
| C147 | `indexToCam` (SamplerModel.v) | binary64: exact halves, relative errors against 1 + h/w, spacing 1/w |
| C148 | box.normal, boundingBox.intersect, the lift by Tiny of the materials | slab test behind the start: sign reasoning on binary64 incl. infinities; the hit point is within 2^-26 of its face by the tolerance of box.normal, the lift exceeds that |
| C149 | cylinderWithCaps, cAnd, box, quadric | C32 (sound hits of intersections) with C34 and an exact slab argument over R |
| C150 | visnan, vlen2, vlen, vdot | case analysis of IEEE products and sums with Flocq's correctness theorems, signs included |
| C151 | cylinderWithCaps, cAnd, box, quadric | first step of the march: entry through a lid, or intermediate value theorem for the mantle; later steps only need to answer |
| C152 | `csg.go`, `quadric.go`, `box.go`, `transformed.go` against `CsgSpec.v` | R: induction over CSG terms with crossings off a common list, intermediate values for membership, chains of crossings |
| C153 | `csg.go` with many operands | B64 witness by computation; instance of C152 |
| C154 | `util.go` Frac | B64: exact floor, one rounded subtraction; witness by computation |
| C36 (true part) | `boxIntersect` in binary64 | rounding error analysis with Flocq's standard model, coordinates within 2^20 |
| C71, C72, C92, C97 | viewer event loop state machine | invariant over all event sequences |
| C73 | `renderLocal` loop | Z, triangular numbers |
| C74, C88 | save functions over a file-system model with limited space, `bufio.Writer` | invariant of the buffered writer; case analysis of failure points |
| C90 | `Animate` | induction over frames; frame names are distinct |
| C75-C78, C94 | PLY and OBJ parsers over lists of code points, mesh files as objects | equivalence with a relational description of the file formats; exact hits as for C95; witnesses |
| C79 | the level-3 generator of `Ctx` | two generator states give different images (refutes C79) |
| C80, C85 | `lightField` at B64 | witness scenes: endless recursion for negative depth, nil material of a phantom tree hit |
| C81 | `isometric.go` | R |
| C82, C83 | whole evaluator against an inductive description of light at surfaces (`LookSpec.v`), in which scattered directions are exactly those of the numbers drawn at that depth | induction on remaining depth and material terms; ray-pool invariant |
| C84 | `SunLight`, `lights.Transformed` | R: rotation matrices |
| C86 | `Load`'s conversion loop | heap program refined to a list of pixel changes |
| C87 | `MapFisheye` | R: inverse trigonometric functions |

## 6. Which code is modelled

| source | model file | left out |
|---|---|---|
| `geom/*.go` | `GeomModel.v` | printing |
| `tracer/sequence` | `SeqModel.v` | Go's `math/rand` is an arbitrary generator |
| `imagef/colorf` | `ColorModel.v`, `ToneModel.v` | RGBA (see encode in `ImageModel.v`) |
| `sampler/*.go` | `SamplerModel.v` | timing statistics; `adaptive.go` has no code, all of it is commented out |
| `tracer/objects/*.go`, `tracer/types` | `ObjModel.v`, `TreeModel.v` | file names, opening and closing of mesh files (the parsers see the whole text) |
| `api/object.go`, centres of `tracer/objects/boundingbox.go` | `PlaceModel.v` | - |
| `tracer/*.go`, `cameras`, `materials`, `lights`, `media` | `SceneModel.v` | - |
| `NewCtx` and `SampleWithCancel` for scenes | `RenderModel.v` | a worker owns a whole context; a panic inside a worker (which ends the process) is a black sample; the number of workers is any positive number |
| `imagef`, `imagef/post`, `imagef/ppm` | `ImageModel.v` | image.Decode; math.J1 is a parameter; JPEG and PNG encoders |
| `texture` | `TextureModel.v` | asset files; math.Asin and math.Atan2 are parameters |
| `api/spec.go`, `view.go`, `render.go`, `animate.go` | `ApiModel.v` | flags, logging, profiling, directory creation; files are byte lists on a disk with limited space |
| `api/server.go` | `ServerModel.v` | HTTP, JSON and gob; panics in sampling goroutines, which end the process; every request runs in its own goroutine, a step is a critical section or one unsynchronized access |
| `cmd/bruteray-view/main.go` | `ViewerModel.v` | windows, buffers and drawing; HTTP and gob (a reply is a non-empty image, an empty one or an error); an image is represented by the request it answers |
| `cmd/bruteray-watch/main.go`, `cmd/halton/halton.go` | `CmdModel.v` | flags, messages, renice; `-rand` and `-disk` |
| `tracer/test` | `TestModel.v` | reading, writing and composing test pictures (`OnePass` and the like), the Convergence report; materials that return a constant |
| `tracer/objects/ply`, `tracer/objects/obj`, `PlyFile`, `ObjFile` of `mesh.go` | `ParseModel.v` | strconv.ParseFloat is a parameter; a file is read without I/O errors; running out of memory in make is an outcome of its own, allocation by append is not limited |

Conversions from float64 to int follow amd64: NaN and values out of range become -2^63.
Where kernel sizes are computed from such values (`wrap64` in `ImageModel.v`) int
arithmetic wraps around.

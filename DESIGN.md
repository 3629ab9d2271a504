# Formal model of rust-cv/cv in Coq 8.16.1

## 1. Shape of the development

    rocq/theories/
      Num.v            numeric interface (a record) and its instances: reals, binary64, binary32
      <Area>.v         executable model of one area of /repo; no proofs
      <Area>Facts.v    lemmas about that model
      <Area>Spec.v     (where useful) the independent, small specification used by the theorems
      Props<Area>.v    the property theorems only; each is closed by `exact`, followed by
                       `Print Assumptions`, with an `Example` showing the hypotheses are met

The model is written function by function; each definition cites the file and lines in
/repo it models, and says where it simplifies.

### Numbers

Numeric code is generic over a record `Num` of operations (no functor, no module type).
It is instantiated
 * with Coq's classical reals `RNum` for the theorems about exact arithmetic,
 * with `SpecFloat` binary64 / binary32 (`F64`, `F32`) to exhibit NaN, infinity and
   signed-zero behaviour. `SpecFloat` is a pure Gallina implementation of IEEE-754
   (round to nearest even), needs no axiom and runs under `vm_compute`.

`FloatFacts.v` connects the `ieee` instances with the reals: each operation is the exact one,
rounded to nearest (from Flocq's correctness theorems). It is used for theorems about all floats.

Theorems over `RNum` say nothing about rounding errors. Where floating point changes the
truth of a property (NaN, division by zero, signed zero) there is a theorem over `F64`/`F32`.

### Panics, overflow, divergence

A Rust panic (slice index, `unwrap`, `assert!`, missing slotmap key, `usize` underflow as in
a debug build) is the explicit value `Panic` of the type `outcome`; a loop that may not
terminate runs on fuel and returns `Fuel` when it is exhausted. Theorems state which.

### External code

No dependency source is available. Dependencies are modelled as follows.
 * nalgebra decompositions (`svd`, `symmetric_eigen`, `complex_eigenvalues`, `lu`),
   the approximate nearest-neighbour index `hgg`, `rand` shuffles, sample consensus,
   triangulators (inside cv-sfm): universally quantified functions (oracles). A theorem that
   needs an oracle to be right states that as a premise (for example "U, S, V^T is a singular
   value decomposition of E").
 * `slotmap::DenseSlotMap`, `HashMap`: finite maps. A fresh key is a creation counter
   (slotmap keys carry a version and are not reused). Iteration order of a `HashMap` is an
   arbitrary permutation where it can be observed.
 * `ndarray`/`image` buffers: row-major lists or functions on pixel coordinates with explicit
   size.
 * nalgebra fixed-size vectors, matrices, isometries: records of coordinates.

## 2. Trusted base

 * Coq 8.16.1 kernel (and its `vm_compute`).
 * The reading of the Rust source recorded in the model's comments; nothing is extracted from
   or run against the Rust code.
 * Standard-library axioms, only where `Print Assumptions` lists them: the classical reals
   (`ClassicalDedekindReals.sig_forall_dec`, `ClassicalDedekindReals.sig_not_dec`),
   `FunctionalExtensionality.functional_extensionality_dep`, and `Classical_Prop.classic`
   where a stdlib/Coquelicot analysis lemma uses it. No axiom of our own and none of another
   library.
 * Oracle contracts, always visible as premises of the theorem that uses them.

## 3. Properties: what is modelled and how it is proved

| id | model | method |
|----|-------|--------|
| C01-C03, C09 | `VSlamData` as finite maps; every mutating method as a function returning `outcome` | invariant preserved by every operation, induction over operation lists; abstraction to the partition of observations |
| C04 | `apply_constraints` loop with the per-view update as an oracle | invariant for updates that stay finite; witness run that panics (`_refuted`) when a view is dropped |
| C05 | constraint generation and recording | invariant plus list reasoning over an arbitrary order of candidate views |
| C06, C07, C08 | poses as isometries over reals (group laws), pose-graph edges | group algebra; lifted over lists of views |
| C10 | `register_frame` range loop | well-founded measure; divergence witness for the setting 0 (`_refuted`) |
| C53, C54, C55 | registration, initialisation and the elementary operations of cv-sfm | invariants of the matching loops against an order-free specification of clear matches; the tracks as an equivalence relation on observations |
| C56, C57, C58 | rejection, merging of landmarks sharing views, and pose-graph optimisation in cv-sfm | composition of the effects of the elementary operations; induction over shared views and over rounds against a simultaneous specification; C56 is refuted by a computed history |
| C11, C12 | candidate search and matching with arbitrary nearest-neighbour oracle | list induction |
| C13 | `bicubic.rs` over reals and over binary32, integer image | case analysis, `field`; monotone rounding (Flocq) for memory safety in floats; witnesses (`_refuted`) |
| C14 | `export.rs` vertex and face lists | induction over cameras |
| C15 | `fed_tau_internal` reordering over `nat`, prime search | modular arithmetic, pigeonhole; witness for n = 1 (`_refuted`) |
| C16 | FED step formula over reals | trigonometric identity by polynomial roots (Vieta) |
| C17, C18 | SIMD filters lane by lane over a generic number type | list/chunk lemmas, lifted to 2-D images; in binary32 forward error bounds lane by lane (FloatGray.v, FloatBlur.v) |
| C19, C20 | diffusion step, conductivity | summation by parts; forward error of a step in binary32 (FloatStep.v); binary32 conductivities by monotone rounding (FloatUp.v); witness in binary32 for contrast 0 (`_refuted`) |
| C21 | histogram loop | invariant of the scan |
| C22, C23, C24, C26, C51 | the keypoint pipeline of akaze: schedule, scale space, response, extrema, refinement, orientation, descriptor, selection (`Akaze.v`) | specification `AkazeSpec.v`/`AkazeBits.v`; invariants of the duplicate-removing loops, integer arithmetic, composition of the stages; the orientation weights against the Gaussian by bounds on exp and pi (`AkazeWindow.v`) |
| C52 | the scale space and the FED cycle together | every level is the specified diffusion of the one before (`AkazeEvolve.v`); contraction of a cycle: the product of the steps is a Chebyshev-like polynomial in the (symmetric, bounded) diffusion operator, bounded by 1 in norm (`FedOperator.v`, `FedDiffuse.v`); gaps of the default schedule by rational bounds on √2 |
| C25, C46 | half-size, Scharr filters, determinant response | per-pixel computation; in binary32 the mean of four floats stays between them (FloatHalf.v, on significands) |
| C27, C28 | `Projective`, `Pose` | algebra over reals; binary64 remarks |
| C29, C30, C31 | `so3.rs` and Jacobians, those of a pose and those of a rotation alone | polynomial identities, derivative lemmas (Coquelicot); `_refuted` where the code differs from its documentation |
| C32, C36, C41 | residuals, epipolar functions | Cauchy-Schwarz, algebra |
| C33, C34, C35 | `cv-pinhole` | algebra; rounding errors bounded operation by operation (`FloatError.v`, `FloatPinhole.v`); binary64 witnesses for NaN and cancellation (`_refuted`) |
| C37 | essential decomposition with SVD premise | matrix algebra |
| C38, C39, C40 | triangulators with eigen/SVD premises | vector algebra; rational witnesses (`_refuted`) |
| C47 | reprojection errors over any triangulator | case analysis, algebra |
| C59 | noisy bearings in the two angular triangulators | angles via arc cosine; every plane through the baseline is at least the arc sine of the triple product away in sum and half of it in the larger one; the code's correction attains the bound; competitors and results at infinity (GeomAngleInf.v); equal rays give 0/0 in binary64 and nothing |
| C48, C49 | three-view gradient, refinement loop of the sine triangulator | rational witness; convexity and induction over iterations |
| C60, C61, C62 | the numerical code of cv-sfm (`SfmGeom.v`), plugged into the mapping model in place of its oracles | the verdicts are shown to depend on poses and features only, so they are the same at every moment of a filter pass; rotation invariance of the epipolar error; case analysis |
| C63 | all operations over abstract poses (`SfmPoses.v`): any set of poses closed under identity, product and inverse, and respected by the numerical answers, is kept by every operation | the invariant instantiated with rigid motions; optimisers, scaling and pose updates return rigid motions (`SfmGeomRigid.v`) |
| C64, C65 | registration with the numerical code (`SfmGeom.v`), from the usable matches of C53 on | decomposition of the answer into a specification record (`registered`); noise-free data are a fixed point of the optimiser (C42) and pass every test, so the loop never rejects; the scene of `SfmSceneDemo.v` meets all premises |
| C66 | starting a reconstruction with the numerical code (`SfmGeom.v`: `two_view`, `three_view`) inside `try_init` (`Sfm.v`) | decomposition into specification records (`pair_started`, `three_started`); noise-free: every depth ratio equals the squared ratio of the two translation lengths, so the median does, and the scaled poses are a fixed point of the optimiser; forward simulation for progress; the scene of `SfmStartDemo.v` (40 points, 3 cameras) meets all premises |
| C67 | the three-view optimisation of the mapping (`SfmGeom.v`: `optimize_three_view`) as an oracle of `Sfm.v` | `SfmDemand.v`: the chosen landmarks are a most-seen subset, the pair count is the largest number of far pairs, the rescaling restores the sum of the translation lengths, agreeing bearings are a fixed point of the optimiser (C38); `refused` is the contrapositive |
| C68 | histories of all non-merging operations with the numerical code in place of oracles and truthful external routines (`SfmTruthSpec.v`) | invariant `mapped` (poses true up to gauge, tracks true, constraints hold) preserved by each operation (`SfmTruth.v`, `SfmTruthRun.v`), using C64-C67; `SfmTruthDemo.v` runs a scene of four cameras and forty points |
| C69 | `incorporate_reconstruction` (`Sfm.v`) with rigid poses and the transformation `try_merge_reconstructions` computes from the common frame | `SfmMergeTruth.v`: C08's `absorbed` with the algebra of scaled relative poses; constraints by the invariant that the destination is a correct map while they are recorded (C67, C68); the counterexample is a reachable database with two maps of six cameras |
| C70 | the whole of `extract` run on an image and on its retoned copy | `AkazeTone.v`, `AkazeToneSpace.v`, `AkazeToneFeat.v`: a relation between the two runs carried through blur, derivatives, contrast factor, conductivity, diffusion, response, detection, refinement, orientation, sorting; the descriptors through C24's description of the bits |
| C71 | `from_dynamic`, `extract` (`Frame.v`) in binary32; the image crate's `grayscale()`, `to_rgb8()` and luma conversions are inputs | `FrameFacts.v`: correct rounding of a quotient of integers (Flocq), gaps between levels exceed rounding errors |
| C72 | `kps_descriptors` (`Frame.v`) over the models of C22, C34 and C13 | projections of parallel lists; totality from C13, C22, C26, C34 |
| C73 | `generate_view_constraints`, `record_view_constraints` (`Sfm.v`) | the candidates are exactly the eligible triples; induction over the selection, counting views not yet seen |
| C74 | `export_reconstruction` (`SfmExport.v`) with `export` (`Bicubic.v`) | the landmark loop keeps exactly the landmarks which can be pictured; for correct maps the observations of a landmark are exact rays and robustness makes them resolved |
| C75 | the loop of `main` of vslam-sandbox (`Sandbox.v`) | an invariant over the images: consistent data, frames in order, `normalized` = the reconstructions normalised so far; truth by C68's invariant and C74; the option `export_maximum_cosine_distance` is read by no function that is called: it is refuted by a scene with one observation far off |
| C76 | `main` of tutorial chapters 3–5 and of kpdraw (`Tutorial.v`); the drawing of a line or a cross is a datum (its ends and colour) | matching by the definition of the nearest two; positions by C24_inside (keypoints at least 13 pixels inside); the round trip through the calibration by C34; in binary64 a line can end one pixel off (refuted) |
| C77 | `VSlamSettings` with its defaults, `add_frame` from images on and `main` of vslam-sandbox (`VSlam.v`) | the program on images is the program on their features (induction over the images); C72 for the features, C75 for the session; in exact arithmetic pose updates never fail, so C04's premise is met; the two settings of the two-view optimisation are read nowhere (proved) |
| C78 | reading of `VSlamSettings` from a JSON object as derived by serde (`SettingsFile.v`) | a table of names, fields, defaults and limits in the specification (`SettingsFileSpec.v`); every field is found under its name by cases; the whole file is discarded if one entry is wrong (refutation of "given settings take effect") |
| C79 | the `rayon` build of feature extraction (`AkazeParallel.v`) as a program with forks on shared levels, under a small-step semantics with arbitrary interleaving and division of the work (`Parallel.v`) | footprints: no branch writes what another one reads, so no step changes what a left-to-right run leads to; every step makes the program smaller; the left-to-right run is the sequential model |
| C80 | loading and saving in `main` of vslam-sandbox over a sequence of runs, each of which stops at any point (`DataFile.v`); the encoding is an oracle with a round-trip contract and no decodable proper prefix; bytes written are taken to stay written | induction over the runs with the file as the encoding of consistent data whose frames are the images of the completed runs, by C75's invariant; the full claim is refuted: stopped while writing, a run destroys the map (`C80_interrupted_refuted`), and an unopenable file is replaced (`C80_unopened_refuted`) |
| C81 | the scale space and responses as in C46, C52 and C70 over the reals, for an image and its image under each of the eight symmetries of the rectangle (`AkazeTurnSpec.v`) | each stage sends turned images to turned images up to a sign (window sums, clamped borders, neighbours, inner pixels up to permutation); the schedule uses the smaller side only; exchanged rows and columns need derivatives to commute, true away from the border; the border test is symmetric because 10 sqrt 2 s is never half an odd integer; kept keypoints from C24's soundness and completeness (`AkazeTurnKept.v`); sides of odd length and ties (`AkazeTurnTie.v`) refuted |
| C82, C83 | `is_landmark_robust_without_view`, `triangulate_landmark_robust_without_view` and `sanity_check` (`SfmWithout.v`) | as C60, on the observations left; for correct maps C68's frame argument (`SfmWithoutTruth.v`); membership in the list of reports; C01 for histories; the screw scene with one observation split off shows that the minimum number of observations is not demanded (`_refuted`) |
| C42 | optimiser loops with generic numbers | induction over iterations; binary64 witness for NaN (`_refuted`) |
| C43, C44 | eight- and five-point estimators with decomposition oracles | polynomial identities by `ring`, case analysis |
| C45 | `lambda-twist`: quadratic and cubic roots, eigenvectors, depths, refinement, pose | factorisation of the cubic pencil, algebra; Newton bounds; binary64 witnesses (`_refuted`) |
| C50 | the same five-point model, end to end | the solution is an eigenvector of the action matrix; the candidate the code makes of it is computed and compared (`_refuted`) |

## 4. Not modelled

Image decoding, logging, the format of the data file (for C80 an encoding with stated properties), rasterising lines and crosses (`imageproc`), the window of tutorial chapter 2, the `cv` facade, the thread
pool of `rayon` (its forks and parallel iterators are modelled for C79), parsing of the sandbox command line, the internals of every dependency. Rounding errors are
treated only where a theorem names a float type (`FloatFacts.v`). Probabilistic quality of the estimators is outside any theorem here.

## 5. Trials against wrong programs

`seeded/LOG.jsonl` records one line per trial: a realistic mistake is made in a definition of the
model in a scratch copy, everything is rebuilt, and the theorems whose proofs no longer go through
are listed. A proof that breaks is evidence, not proof, that the theorem is now false; for each
uncaught mistake the theorem responsible for the broken claim was tightened, the line says which,
and the trial was repeated.

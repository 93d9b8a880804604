# Formal model of pymiediff (MieDiff) in Rocq/Coq 8.16.1

Source under study: `/repo` (read as text only, never executed).
Properties: `properties.jsonl`. Status per property: `MANIFEST.json`.

## 1. What is modelled, and how

The model is a shallow embedding, one Gallina function per Python function, with
file/line citations in the comment above every definition.

* **Numbers.** All numeric code is written once over a record of real operations
  (`Ops.v`, class `RealOps T`), complex numbers are pairs `T * T`.  Instance `ROps`
  on the stdlib reals `R` is used in the theorems; its complex operations are
  definitionally Coquelicot's `C`.  A second instance, `DOps` on dual numbers
  `R * R` (`ModelGrad.v`), runs the very same model code on (value, tangent)
  pairs; it models automatic differentiation (C83, C87, C106).
* **Exceptions** are values (`result A := Ok a | Err e`).
* **Tensors** are a shape and an index function; PyTorch broadcasting, slicing,
  `unsqueeze`, `stack`, `squeeze` are modelled with their failure cases.
* **Loops** are structural recursions over the loop counter.
* **Objects** (`Particle`, `MatDatabase`) are state records and the methods are
  state transformers; shared materials live in an explicit heap.

### Simplifications (also noted at each definition)

* exact arithmetic in all claims but C97, C98, C107 and C108 (rounding of relative size u): floating point rounding, overflow, `precision=`/dtype
  rounding, signed zeros and NaN propagation are not modelled (NaN from
  `sqrt` of a negative real-dtype number is modelled as an explicit value where
  a property is about it);
* autograd: gradients of the pena pipeline are modelled as forward-mode dual
  numbers (C83), the hand-written backward passes of `special.py` as functions
  (C84, C85), cached values by their provenance (C49); the tape itself and
  PyTorch's derivative formulas are not modelled;
* scipy's Halton sampler is modelled by the sequence it returns (C105); scipy's spherical Bessel functions, YAML parsing, torchgdm itself, plotting,
  printing, warnings and tqdm are not modelled; where SciPy's functions matter
  they are a parameter of the model (C31, C84); so is the linear solver of C99,
  where torchgdm's interaction matrix is taken to be 1 - G alpha;
* `vsh`/`vsh_pena` evaluate at the shifted argument `k r + 1e-8`; the limits C78
  are stated at that argument;
* size-1 broadcasting in the masks of `_get_full_Gdotalpha` is not modelled;
* devices are abstract labels.

## 2. Plan per property

| id | model | proof idea |
|----|-------|------------|
| C01,C02 | `cross_sections` sums over types/orders | linearity of finite sums; squares |
| C03,C04,C05,C08 | `angular_scattering`, `pi_tau` | closed values at +-1, parity, bounds of pi/tau by induction |
| C06 | `pi_tau` recurrence vs Legendre polynomials (independent spec, with real derivatives) | strong induction on the order |
| C07 | integral over theta | orthogonality via Sturm-Liouville integration by parts |
| C09,C10 | Pena recurrences per element | induction on the order, field identities |
| C11-C14 | layer recursion | induction on the list of layers, transfer of (F,G) pairs |
| C15,C16 | whole pipeline | all quantities depend on k*r and m only |
| C17,C18 | limit in the depth | psi_n is the minimal solution (mean value bound along a ray), Miller's argument |
| C19 | `_miecoef` with real radial functions | num = Re den |
| C20-C22 | `_miecoef` (57 temporaries) | `field` on the eight equations, determinant uniqueness |
| C23-C26 | torch spherical Bessel routines | induction, derivative rules |
| C27-C34 | tensor broadcasting | index calculation for symbolic sizes; counterexamples for the false ones |
| C35,C36 | truncation helpers | rounding lemmas, cube root monotonicity |
| C37-C39 | `Particle` state machine | case analysis, induction on histories, aliasing counterexample |
| C40 | squeeze | induction on shapes |
| C41-C46 | nearfields | interface algebra, mask partition, broadcast counterexample |
| C47 | interp1d | sortedness and bucketize invariants |
| C48,C49 | memo cache | invariant over histories; provenance counterexample |
| C50-C52 | loaders | list induction; counterexample |
| C53-C56 | geometry | trigonometric algebra |
| C57-C63 | torchgdm helpers | list/tensor reasoning, counterexamples |
| C64,C65 | documented options | counterexamples |
| C66 | plane wave coefficients | induction |

| C67,C68 | Bessel routines at the zeros of sin; torch coefficients in the limit | witness x = pi; continuity of the 8x8 solution |
| C69-C71 | batched observables | index calculation, witness |
| C72 | Particle + materials + coefficients | composition of the state machine and the scalar recursion |
| C73 | batched pena near fields | broadcasting views with symbolic sizes, loop over layers as a list induction, masks |
| C74-C76 | near-field interface conditions, GPM normalisation, block matrix | algebra of the layer transfer; list induction |
| C77,C78 | Maxwell's equations, convergence of the fields | curl/div in spherical coordinates with real derivatives; uniqueness by the determinant |
| C79 | incident expansion | expansion of exp(i z cos t) via its ODE in z, vector identities, series convergence |
| C80 | far zone | leading asymptotics of zeta_n by induction on the order |
| C81 | power flux | Parseval for pi/tau, Wronskian |
| C82 | passive particles | monotone flux function in each layer, transfer through the interfaces, limit of C78 |
| C83 | dual numbers | logical relation `carries` preserved by every operation of the code |
| C84,C85 | autograd functions, gradient checker | chain rule along curves, Bessel equation, conjugation symmetry |
| C86 | multipole series | real part of the flux bounds the state at the surface; growth of psi_n, zeta_n; comparison of psi_n, zeta_n inside a layer with the boundary values |
| C87 | near fields on dual numbers | `carries` for vectors and harmonics; region masks are locally constant off the interfaces; acos/atan2 of moving positions |
| C88 | Particle near fields | state machine of C72 composed with the batched fields of C73 |
| C89 | GPM training data | C88 and C56 composed over sources and wavelengths, heap invariant |
| C90 | scattering problem | decay at the two ends of an interval is uniform inside (abs(F)^2 is convex for large n); termwise differentiation of the nine partial derivatives; curl of the limit = limit of the curls (C77) |
| C91 | log-derivative routines | unguarded recurrence equals the guarded one beyond the turning point (C17), then downward induction over limits; Wronskian for D3 |
| C92 | dead log-derivative code | Python indexing of a pair fails at index 2; no return value |
| C93 | bundled materials | integer check of each table (positive index, non-negative extinction, increasing wavelengths) run in the kernel and proved sound; physical permittivities are a convex cone, so interpolation keeps them; poles of the Sellmeier terms bounded away from the validity range |
| C94 | particles of bundled materials | C93 gives `passive_stack` and `no_lossless_metal`, then C72, C82, C86 |
| C95 | gradients through materials | bucketize is locally constant off the samples, so both weights are smooth and their sum positive; formulas term by term; compose with C83; memo by unfolding |
| C96 | electrostatic limit | write the Riccati-Bessel functions as power times an even function known to O(t^2); track both amplitudes of every layer in those scaled units through the interfaces; the limit recursion is the electrostatic one; energy argument for its well-posedness |
| C97 | rounded arithmetic | the model is polymorphic in its numbers: run it on any operations with relative error u; each operation preserves "settles to its exact value", the guards because no denominator sits on its threshold; a truncating p-bit arithmetic as instance |
| C98 | small particles in rounded arithmetic | downward induction: each step n/x - 1/(D+n/x) absorbs its second term, so D_(n-1) = n/x and psi_n = psi_(n-1)(n/x - D_(n-1)) = 0; interval bounds through the remaining operations give the size of b_1; rounding to nearest proved absorbing |
| C99 | self-consistent fields from the patched solver | sums over all components regrouped by blocks (C76), identity minus G alpha read as the local-field equation; scatter positions computed for a mask of six entries per position (C63); uniqueness by linearity |
| C100 | azimuth and mirror symmetry of near fields | the eight harmonics factor into functions of r, theta times cos phi or sin phi; the rotation to Cartesian components is worked out once per sum; atan2, acos and norm under sign changes; lifted to the batched call by C73 |
| C101 | error of the default recurrence depth | computed and exact denominators are both at least (2k+1)/abs(z) - 1 beyond the turning point, so each order crossed contracts the error by an explicit factor; far below the turning point the recurrence alternates between order z and 1/z, bounded step by step, which refutes independence of n_max |
| C102 | scale invariance of near fields | size parameters, arguments of the harmonics, region masks and the phase depend on products of a length and a wavenumber only; coordinates scale for x other than 0; lifted to the batched call by C15 and C73 |
| C103 | relative indices in near fields | the principal square root commutes with multiplication by q^2, so layers and arguments of the harmonics keep their values and only the explicit index in front of H changes; lifted by C73 |
| C104 | splitting a layer, near fields | the inward step across a fictitious interface is the identity, so the amplitude list gets one entry twice; region numbers shift by one beyond it; C13 for the exterior amplitudes |
| C105 | automatic support points | digit recursion of the van der Corput numbers; n/2 minus their sum is nonnegative and grows by a bounded amount per digit, so the mean is near 1/2 and no point is far from it relative to the 24th point; integers for fewer points |
| C106 | gradients of the torch backend | `carries` through both Bessel recurrences by induction, then through the quotients; the two denominators are the determinants of C19; depths locally constant off the integers |
| C107 | rounding in the torch backend | the relation of C97 through both Bessel recurrences and the quotients; the truncated modulus is eventually constant off the integers |
| C108 | rounding in the near fields | the relation of C97 through harmonics, interface recursion and masked sums; off the interfaces both comparisons are eventually those of exact arithmetic; acos and atan2 are continuous off the axis and the cut; 1/3 has no finite binary expansion |

Not expressible here: accuracy of double precision in digits, speed/GPU behaviour, agreement with
third-party reference codes.

### Files

`Ops`, `ROps` numbers; `Tensor` tensors; `Model*` the code, function by function
(`ModelSpecial` special.py, `ModelMie` multishell.py per element, `ModelBatch` its tensor
layer, `ModelObs` observables on tensors, `ModelNear`/`ModelNearPena`/`ModelNearLegacy`/`ModelGradNear` nearfields,
`ModelJn`/`ModelLogdir` tensor Bessel routines, `ModelGeom` helper.py geometry and tg.py rotations,
`ModelMaterial` materials, `ModelBundled` the registry and the data files, `ModelParticle`/`ModelParticleNear` main.py, `ModelTg`/`ModelGpm`/`ModelSolve`/`ModelSupport` tg.py, `ModelGrad`/`ModelGradMat`/`ModelGradTorch` dual numbers, `ModelRound`/`ModelRoundTorch`/`ModelRoundNear` rounded arithmetic,
`ModelAutograd` autograd functions and gradient checker).  `*Spec` hold the independent
specifications, `Props*` the property theorems (nothing else), `Example*` concrete cases,
all other files are proofs.

### Findings: properties that are false of the code

Each has a `_refuted` theorem with a witness, usually with a general theorem that says
exactly when the property fails and one that says when it holds.

| id | finding |
|----|---------|
| C28 | Refuted: with the torch backend the recurrence depth is chosen from the largest argument of the batch, so a particle's result depends on its neighbours (witness). The depth-parametrised independence that does hold is proved too. |
| C30 | Refuted when N_part = L = N_k0: a spectral (L, N_k0) table is then read as per-particle constants (witness). All other cases are proved. |
| C33 | Refuted for one particle (witness); proved for two or more. |
| C34 | Refuted: a batch mixing homogeneous and core-shell particles is always rejected (witness and general theorem). |
| C37 | Refuted only in the error type: one wrong-dimension call raises RuntimeError instead of ValueError (witness). All other constructor claims are proved. |
| C39 | Refuted: constructing a second particle on another device moves the material objects it shares with the first, which then fails (witness and general theorem). |
| C46 | Refuted: every number of wavelengths other than 1 and 3 fails, and 3 gives wrong fields in a dispersive environment; one wavelength is proved right. |
| C49 | Refuted: a repeated wavelength returns the cached value with the old provenance (witness). |
| C52 | Refuted: an unknown formula is accepted at construction (witness); the error appears at evaluation. |
| C59 | Refuted: every plain number and every 0-d tensor is refused, also a consistent one; one-entry tensors are proved to be accepted. |
| C61 | Refuted for n_max = 1: the order axis is squeezed away (witness); n_max >= 2 is proved. |
| C64 | Refuted: integers are rejected by n_add.lower(); 'auto' is proved to work. |
| C65 | Refuted for rank >= 2; vectors of any content and tensors without small entries are proved. |
| C67 | Refuted at x = k*pi, where psi_0 = sin x = 0 (witness); everywhere else convergence is C17/C18. |
| C71 | Refuted: a 0-d angle mixes the multipole orders (witness with values 7/3 and 7 instead of 4). |
| C84 | Gradients proved for exact j_n, y_n and non-zero arguments; the no-modification half is refuted at zero entries (overwritten by 1e-10 through shared memory) and proved elsewhere. |
| C85 | Limit proved (summed over the orders, as the engine does); the shape claim is refuted for every order >= 1 and proved for order 0. |
| C86 | The electric coefficients need `no_lossless_metal`: a layer with real negative permittivity carries surface modes of every order. The code-level statements assume no safeguard is active up to n_max; the near-field one assumes the point is farther than 1e-8/(k0 abs(m)) from every interface, and compares with the limit at the shifted argument. |
| C87 | On the plane x = 0 `transform_xyz_to_spherical` replaces x by 10 eps: the azimuth jumps there, so the gradient that autograd returns for a position crossing the plane is not a derivative (`C87_positions_refuted`). |
| C88 | The torch and scipy backends refuse every particle at a number of wavelengths other than 1 and 3 (`C88_torch_wavelengths_refuted`, consequence of C46); the pena backend is proved to answer always. |
| C92 | Refuted: `psi_torch_logdir` returns None, `xi_torch_logdir` and `Ql_torch` raise for every argument, and order 0 of `Ql_torch` divides by an expression that is identically zero. |
| C93 | Dispersion formulas are extrapolated without warning: fused silica at 9 um gets a negative real permittivity. `list_available_materials(verbose=True)` raises TypeError for every non-empty registry. `MatDatabase()` returns an object without data instead of failing. |
| C95 | At a sample of a table autograd returns the slope of the interval to the left (no derivative exists). A wavelength evaluated before, also earlier in the same vector, returns the tangent of its first evaluation: the second of two equal wavelengths gets no gradient of its own and the first gets it twice. |
| C98 | Refuted: for size parameters below about the square root of the unit roundoff (1e-9 in double, 5e-5 in single precision) the computed psi_n are 0 for n >= 1; all orders >= 2 vanish and b_1 becomes of order x^3 for every material, also for the surrounding one. |
| C101 | Refuted in part: with a user-given n_max the recurrences start at n_max + 15 however large the argument is. With n_max = 1 the log-derivative of every real z >= 1000 is near -z/140, and a sphere of index 1600/801 and size parameter 400 pi + pi/2 gets abs(b_1) < 1/5 instead of 1. The automatic n_max is proved deep enough for the orders from abs(z) on. |
| C102 | Positions with x = 0 and y other than 0 are moved to x = 1e-10 in the caller's unit of length, so their azimuth depends on the unit. |

## 3. Trusted base

The Coq 8.16.1 kernel; the axioms listed below; and the faithfulness of the model to
`/repo`, which is by reading.  No axiom is declared in this development.  Every theorem in
`Props*.v` is followed by `Print Assumptions`; all axioms come from the standard library:
`ClassicalDedekindReals.sig_forall_dec` (A), `ClassicalDedekindReals.sig_not_dec` (B),
`FunctionalExtensionality.functional_extensionality_dep` (C), `Classical_Prop.classic` (D).

* AC: `C15_scale_entries`, `C50_absorption_sign`, `C99_unique`
* A: `C66_period`, `C76_blocks_cover`
* none: `C93_lookup`, `C93_listed`, `C93_keys`, `C93_named`, `C93_verbose_refuted`, `C58_explicit_respected`, `C62_order_kept`, `C62_rejections`
* ABC: `C68_exact_nonsingular`, `C56_transverse`, `C56_products_kept`, `C57_angles`, `C45_unit_modulus`, `C96_statics_well_posed`, `C96_sphere`, `C96_coated`, `C60_electric_radiation_reaction`, `C60_magnetic_radiation_reaction`
* ABCD: all others

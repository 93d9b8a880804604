{"id": "C01", "title": "Energy balance of cross sections", "statement": "For every result of cross_sections: cs_ext = cs_sca + cs_abs and q_ext = q_sca + q_abs, the same identity holds for every multipole entry, totals are exactly the sum of the reported multipole entries over type and order, and every q is the matching cs divided by pi*r_outer^2.", "quantifier": "all coefficient tensors, all orders, particles, wavelengths, real or complex host wavevectors", "why_tests_cant": "tests compare a handful of spectra with tolerances; the identity must hold for every coefficient value and every truncation order", "anchors": ["src/pymiediff/multishell.py:cross_sections"]}
{"id": "C02", "title": "Scattering is never negative", "statement": "With a real non-zero host wavevector, cs_sca and every entry of cs_sca_multipoles are >= 0, and cs_sca = 0 only if every a_n and b_n up to n_max vanishes.", "quantifier": "all coefficient values and truncation orders, all real non-zero k", "why_tests_cant": "sign of a sum over arbitrary many complex coefficients; sampling cannot exclude a negative or spuriously vanishing value", "anchors": ["src/pymiediff/multishell.py:cross_sections"]}
{"id": "C03", "title": "Optical theorem across the API", "statement": "For the same inputs, the total cs_ext returned by cross_sections equals (4*pi/k^2)*Re(S1) where S1 is what angular_scattering returns at theta = 0.", "quantifier": "all coefficient values, truncation orders and real host wavevectors", "why_tests_cant": "relates two different public functions through an infinite family of angular values pi_n(1), tau_n(1); tests only check sampled n_max", "anchors": ["src/pymiediff/multishell.py:cross_sections", "src/pymiediff/multishell.py:angular_scattering", "src/pymiediff/special.py:pi_tau"]}
{"id": "C04", "title": "Forward and backward amplitude symmetry", "statement": "angular_scattering returns S1 = S2 at theta = 0 and S1 = -S2 at theta = pi; consequently pol_degree is 0 in both directions whenever the intensity is non-zero.", "quantifier": "all coefficients, all truncation orders", "why_tests_cant": "needs values of the angular recurrence at both end points for every order", "anchors": ["src/pymiediff/multishell.py:angular_scattering", "src/pymiediff/special.py:pi_tau"]}
{"id": "C05", "title": "Intensities and degree of polarisation are physical", "statement": "i_per, i_par, i_unpol >= 0, i_unpol is their mean, and -1 <= pol_degree <= 1 whenever i_unpol > 0; S1, S2 and everything derived from them are even and 2*pi-periodic in theta.", "quantifier": "all coefficients, truncation orders and angles", "why_tests_cant": "universally quantified over angles and complex coefficients", "anchors": ["src/pymiediff/multishell.py:angular_scattering"]}
{"id": "C06", "title": "pi_tau are the textbook angular functions", "statement": "pi_tau(n, mu) returns pi_j = P_j'(mu) and tau_j = mu*pi_j - (1-mu^2)*pi_j' for every order j <= n, with P_j the Legendre polynomial, and therefore pi_j(-mu) = (-1)^(j+1) pi_j(mu), tau_j(-mu) = (-1)^j tau_j(mu), pi_j(1) = tau_j(1) = j(j+1)/2.", "quantifier": "all orders and all real mu", "why_tests_cant": "the recurrence must be matched with derivatives of polynomials of unbounded degree", "anchors": ["src/pymiediff/special.py:pi_tau"]}
{"id": "C07", "title": "Integrated angular intensity equals the scattering cross section", "statement": "Integrating (i_per + i_par) * sin(theta) over 0..pi and multiplying by pi/k^2 gives exactly cs_sca for the same inputs.", "quantifier": "all coefficients and truncation orders", "why_tests_cant": "quadrature tests are approximate; orthogonality of the angular functions is required for every pair of orders", "anchors": ["src/pymiediff/multishell.py:angular_scattering", "src/pymiediff/multishell.py:cross_sections", "src/pymiediff/special.py:pi_tau"]}
{"id": "C08", "title": "Angular functions stay bounded", "statement": "For mu in [-1,1] and every order j, |pi_j(mu)| <= j(j+1)/2 and |tau_j(mu)| <= j(j+1)/2, so |S1|,|S2| <= sum (2n+1)/2 (|a_n|+|b_n|): the forward direction bounds every angle.", "quantifier": "all orders, all angles, all coefficients", "why_tests_cant": "uniform bound over a continuum and all degrees", "anchors": ["src/pymiediff/special.py:pi_tau", "src/pymiediff/multishell.py:angular_scattering"]}
{"id": "C09", "title": "Pena log-derivatives, psi and zeta are mutually consistent", "statement": "For every recurrence depth, pena_D1_n, pena_D3_n and pena_psi_zeta_n satisfy psi_n = psi_{n-1}/(D1_n + n/z), the Wronskian identity (D3_n - D1_n)*psi_n*zeta_n = i for n >= 1, and for n >= 2 zeta_n = zeta_{n-1}/(D3_n + n/z), exactly, whenever no denominator safeguard fires.", "quantifier": "all complex z, orders and n_add", "why_tests_cant": "identities that must hold at every order of a recurrence for every complex argument", "anchors": ["src/pymiediff/special.py:pena_D1_n", "src/pymiediff/special.py:pena_D3_n", "src/pymiediff/special.py:pena_psi_zeta_n"]}
{"id": "C10", "title": "Interface ratio Q_n is the ratio of radial functions", "statement": "pena_Q_n returns Q_n = psi_n(z1) zeta_n(z2) / (zeta_n(z1) psi_n(z2)) with psi, zeta the sequences pena_psi_zeta_n returns, for every order, whenever x1/x2 = z1/z2 and no safeguard fires.", "quantifier": "all complex z1, z2, all orders, all depths", "why_tests_cant": "closed form against a recurrence with complex exponentials for every order", "anchors": ["src/pymiediff/special.py:pena_Q_n", "src/pymiediff/special.py:pena_psi_zeta_n"]}
{"id": "C11", "title": "Pena coefficients satisfy the electromagnetic boundary conditions of the layered sphere", "statement": "For every number of layers, the a_n and b_n of backend 'pena' are such that layer amplitudes exist with a regular core, unit incident amplitude outside, and continuous tangential E and H at every interface, for every order, with respect to the radial functions the code computes.", "quantifier": "all L, radii, complex permittivities, wavelengths, orders where no safeguard fires", "why_tests_cant": "layer count is unbounded; reference data exist for a few geometries only", "anchors": ["src/pymiediff/multishell.py:_miecoef_pena"]}
{"id": "C12", "title": "Homogeneous sphere reproduces the Lorenz-Mie formula", "statement": "With one layer, backend 'pena' returns a_n = ((D/m + n/x) psi_n - psi_{n-1})/((D/m + n/x) zeta_n - zeta_{n-1}) and the b_n analogue with D = D1_n(m x), and with D = psi_n'(mx)/psi_n(mx) this is the textbook [m psi(mx) psi'(x) - psi(x) psi'(mx)]/[...] quotient.", "quantifier": "all m, x, n", "why_tests_cant": "algebraic equality of two different closed forms for all complex arguments", "anchors": ["src/pymiediff/multishell.py:_miecoef_pena"]}
{"id": "C13", "title": "Splitting a layer is unobservable", "statement": "Inserting an additional interface inside a layer (same permittivity on both sides) at any radius leaves every a_n and b_n of backend 'pena' unchanged.", "quantifier": "all layer stacks, all positions and radii of the fictitious interface, all orders where no safeguard fires", "why_tests_cant": "metamorphic relation over arbitrary layer stacks", "anchors": ["src/pymiediff/multishell.py:_miecoef_pena"]}
{"id": "C14", "title": "Index-matched matter is invisible", "statement": "A particle whose layers all have the host permittivity has a_n = b_n = 0 for every order, hence zero cross sections and zero scattered amplitudes.", "quantifier": "all radii, layer counts, hosts, orders where no safeguard fires", "why_tests_cant": "needs exact cancellation of a recurrence for all orders", "anchors": ["src/pymiediff/multishell.py:_miecoef_pena", "src/pymiediff/multishell.py:cross_sections"]}
{"id": "C15", "title": "Scale invariance", "statement": "Multiplying every radius by s > 0 and dividing every k0 by s leaves n_max, a_n, b_n, efficiencies and S1, S2 unchanged and multiplies every cross section by s^2.", "quantifier": "all inputs and all s > 0", "why_tests_cant": "metamorphic over a continuum of scales", "anchors": ["src/pymiediff/multishell.py:mie_coefficients", "src/pymiediff/multishell.py:cross_sections", "src/pymiediff/multishell.py:angular_scattering"]}
{"id": "C16", "title": "Only relative indices matter", "statement": "Multiplying the host index and all layer indices by a common positive factor c while dividing k0 by c leaves a_n and b_n unchanged.", "quantifier": "all inputs and all c > 0", "why_tests_cant": "metamorphic over a continuum", "anchors": ["src/pymiediff/multishell.py:mie_coefficients", "src/pymiediff/multishell.py:_miecoef_pena"]}
{"id": "C17", "title": "Downward recurrence converges to the true logarithmic derivative", "statement": "For every complex z at which no psi_k (k >= n, up to the turning point k ~ |z|) vanishes relative to psi_{k+1} (within the 1e-30 safeguard), pena_D1_n(z) at order n tends to psi_n'(z)/psi_n(z) (psi_n the true Riccati-Bessel function) as n_add grows; once n >= |z| this holds without further condition and with an explicit geometric error bound.", "quantifier": "all complex z, all orders", "why_tests_cant": "a limit statement about an unbounded depth parameter", "anchors": ["src/pymiediff/special.py:pena_D1_n"]}
{"id": "C18", "title": "Pena coefficients converge to the exact Mie coefficients", "statement": "As the recurrence depth grows, a_n and b_n of a layered sphere tend to the unique solution of the interface conditions written with the true Riccati-Bessel functions; for a homogeneous sphere this is the Bohren-Huffman quotient.", "quantifier": "all m, x with non-vanishing denominators, all orders", "why_tests_cant": "limit statement; finite tests only see one depth", "anchors": ["src/pymiediff/multishell.py:_miecoef_pena", "src/pymiediff/special.py:pena_D1_n"]}
{"id": "C19", "title": "Lossless particles do not absorb", "statement": "For real permittivities (core and shell) and a real host, every order returned by the torch backend satisfies |a_n|^2 = Re a_n and |b_n|^2 = Re b_n, so cs_abs and all its multipole entries are exactly 0 and cs_ext = cs_sca.", "quantifier": "all real indices, radii, wavelengths and orders with non-singular denominators", "why_tests_cant": "equality over a continuum; floating point tests cannot separate tiny absorption from zero", "anchors": ["src/pymiediff/multishell.py:_miecoef", "src/pymiediff/multishell.py:cross_sections"]}
{"id": "C20", "title": "Torch/scipy coefficients solve the Bohren-Huffman core-shell system", "statement": "The eight coefficients a,b,c,d,f,g,v,w returned with return_internal=True satisfy all eight boundary equations (Bohren-Huffman 8.1) in terms of the radial functions the backend evaluates.", "quantifier": "all complex values of the radial functions and indices with non-zero determinants", "why_tests_cant": "a 57-term machine-generated expression; any sign slip is invisible at special parameters", "anchors": ["src/pymiediff/multishell.py:_miecoef"]}
{"id": "C21", "title": "The core-shell solution is unique, so backends agree", "statement": "Whenever the two determinants are non-zero, any a,b,c,d,f,g,v,w satisfying the eight boundary equations equals the returned ones; so for one or two layers backends 'pena' and 'torch'/'scipy' return the same a_n, b_n when they evaluate the same radial functions.", "quantifier": "all complex radial function values", "why_tests_cant": "uniqueness is a universally quantified statement over candidate solutions", "anchors": ["src/pymiediff/multishell.py:_miecoef", "src/pymiediff/multishell.py:_miecoef_pena"]}
{"id": "C22", "title": "Core-shell with equal materials equals the homogeneous sphere", "statement": "If core and shell indices coincide, the torch/scipy a_n, b_n do not depend on the core radius and equal the homogeneous-sphere formula, c_n = f_n, d_n = g_n and v_n = w_n = 0.", "quantifier": "all radii, indices, orders with non-singular determinants", "why_tests_cant": "metamorphic over all radii", "anchors": ["src/pymiediff/multishell.py:_miecoef"]}
{"id": "C23", "title": "Torch radial functions obey the spherical Bessel recurrence", "statement": "sph_jn_torch_via_rec and sph_yn_torch return sequences with f_{n-1} + f_{n+1} = (2n+1)/z f_n for every interior order, j_0 = sin(z)/z, y_0 = -cos(z)/z, y_1 = -cos(z)/z^2 - sin(z)/z, for every recurrence depth.", "quantifier": "all complex z with |z| >= 1e-10 and sin z != 0, all orders, all depths", "why_tests_cant": "recurrence identities at every order", "anchors": ["src/pymiediff/special.py:sph_jn_torch_via_rec", "src/pymiediff/special.py:sph_yn_torch"]}
{"id": "C24", "title": "f_der is the derivative", "statement": "Applied to y_n (and to j_n in closed form), f_der returns the true complex derivative for every order: d/dz f_n = f_{n-1} - (n+1)/z f_n.", "quantifier": "all orders, all non-zero z", "why_tests_cant": "differentiation of recursively defined functions at all orders", "anchors": ["src/pymiediff/special.py:f_der", "src/pymiediff/special.py:sph_yn_torch"]}
{"id": "C25", "title": "The two torch j_n algorithms agree", "statement": "sph_jn_torch (continued-fraction ratios) and sph_jn_torch_via_rec (normalised downward recurrence) return the same values when started one order apart, for |z| above the small-argument thresholds.", "quantifier": "all complex z, orders, depths for which no intermediate denominator vanishes", "why_tests_cant": "equality of two algorithms on all inputs", "anchors": ["src/pymiediff/special.py:sph_jn_torch", "src/pymiediff/special.py:sph_jn_torch_via_rec"]}
{"id": "C26", "title": "Small-argument branch uses the right double factorial", "statement": "For |z| < small_z, sph_jn_torch returns z^n/(2n+1)!! for every order, in particular j_0 = 1 and at z = 0 all higher orders 0.", "quantifier": "all orders, all small z", "why_tests_cant": "log-gamma identity for every order", "anchors": ["src/pymiediff/special.py:sph_jn_torch"]}
{"id": "C27", "title": "Batching does not change results (pena, fixed n_max)", "statement": "With an explicit n_max, the coefficients for particle p and wavelength k in a batched pena call equal those of the single-particle single-wavelength call with that particle's radii and permittivities.", "quantifier": "all batch sizes, layer counts, spectra, permittivity layouts", "why_tests_cant": "independence over arbitrary batch composition", "anchors": ["src/pymiediff/multishell.py:mie_coefficients", "src/pymiediff/multishell.py:_miecoef_pena", "src/pymiediff/multishell.py:_broadcast_mie_layers"]}
{"id": "C28", "title": "Torch backend results are independent of the rest of the batch", "statement": "With an explicit n_max, the torch-backend coefficient of one particle does not depend on which other particles/wavelengths are in the call.", "quantifier": "all batches", "why_tests_cant": "the recurrence depth is shared over the batch; only a proof or a counterexample over the continuum settles it", "anchors": ["src/pymiediff/special.py:sph_jn_torch_via_rec", "src/pymiediff/multishell.py:_miecoef"]}
{"id": "C29", "title": "Permittivity layouts denote what the documentation says", "statement": "For accepted shapes, eps_layers (L,), (N_part,L), (L,N_k0), (N_part,L,N_k0) (and singleton variants) broadcast to the (N_part,L,N_k0) tensor whose (p,l,k) entry is the documented one; all other shapes raise ValueError.", "quantifier": "all shapes, all sizes", "why_tests_cant": "case analysis over unbounded sizes", "anchors": ["src/pymiediff/multishell.py:_broadcast_mie_layers"]}
{"id": "C30", "title": "The permittivity layout is unambiguous", "statement": "A 2-D eps_layers of shape (L, N_k0) given as spectral data is interpreted as spectral data.", "quantifier": "all N_part, L, N_k0", "why_tests_cant": "shape coincidences depend on sizes tests rarely choose", "anchors": ["src/pymiediff/multishell.py:_broadcast_mie_layers"]}
{"id": "C31", "title": "Invalid geometries are rejected", "statement": "Functional API calls with radii that are not strictly increasing for some particle, mismatched permittivity or environment lengths, only one of r_layers/eps_layers, or an unknown backend raise ValueError, and never return coefficients.", "quantifier": "all inputs", "why_tests_cant": "all malformed inputs", "anchors": ["src/pymiediff/multishell.py:mie_coefficients", "src/pymiediff/multishell.py:_as_layer_inputs", "src/pymiediff/multishell.py:_broadcast_mie_layers"]}
{"id": "C32", "title": "Legacy core/shell arguments mean the same as layer arguments", "statement": "A legacy call (r_c, eps_c, r_s, eps_s) with N particles and (N,N_k0) permittivities yields the same broadcast configuration as the r_layers=(r_c,r_s), eps_layers=(eps_c,eps_s) call; a call without shell equals the one-layer call.", "quantifier": "all sizes and values with r_c < r_s for all particles", "why_tests_cant": "equivalence of two input normalisations", "anchors": ["src/pymiediff/multishell.py:_as_layer_inputs", "src/pymiediff/multishell.py:_broadcast_mie_layers"]}
{"id": "C33", "title": "Legacy constant permittivities work for any particle count", "statement": "Legacy per-particle constant permittivities given as 1-D arrays of length N_part are accepted for any spectrum length, as for N_part >= 2.", "quantifier": "N_part >= 1, N_k0 >= 1", "why_tests_cant": "size-dependent branch", "anchors": ["src/pymiediff/multishell.py:_as_layer_inputs"]}
{"id": "C34", "title": "Legacy batches may mix homogeneous and core-shell particles", "statement": "A legacy batch in which r_c <= r_s for every particle is accepted.", "quantifier": "all batches", "why_tests_cant": "mixed batches not covered", "anchors": ["src/pymiediff/multishell.py:_as_layer_inputs", "src/pymiediff/multishell.py:_broadcast_mie_layers"]}
{"id": "C35", "title": "Automatic truncation is safe", "statement": "The automatic n_max is >= 1; for backend 'pena' it is at least 15 and at least |m_l x_l| + 14 for every layer, particle and wavelength, and at least the Wiscombe count for the outer radius; adding particles or wavelengths to the batch never decreases it.", "quantifier": "all batches, radii, indices, wavelengths", "why_tests_cant": "monotonicity and bounds with rounding and cube roots over all inputs", "anchors": ["src/pymiediff/helper/helper.py:get_truncution_criteroin_pena2009", "src/pymiediff/helper/helper.py:get_truncution_criteroin_wiscombe", "src/pymiediff/multishell.py:mie_coefficients"]}
{"id": "C36", "title": "Wiscombe truncation is monotone", "statement": "get_truncution_criteroin_wiscombe never decreases when the size parameter grows, including across its piecewise boundaries.", "quantifier": "all pairs of non-negative size parameters", "why_tests_cant": "monotonicity over a continuum with jumps at 8 and 4200", "anchors": ["src/pymiediff/helper/helper.py:get_truncution_criteroin_wiscombe"]}
{"id": "C37", "title": "Particle constructor accepts exactly the documented combinations", "statement": "Particle(...) raises ValueError for every mixture of layer and legacy arguments, missing partner arguments, wrong dimensionality, empty or mismatched layers, non-increasing legacy radii, and otherwise yields a particle whose aliases r_c, r_s, mat_c, mat_s refer to first and last layer.", "quantifier": "all argument combinations", "why_tests_cant": "combinatorial argument space", "anchors": ["src/pymiediff/main.py:Particle.__init__"]}
{"id": "C38", "title": "Device moves keep a particle coherent", "statement": "After any sequence of Particle.set_device calls, all tensors and materials reachable from the particle are on the last device and aliases equal the layers they alias; values never change.", "quantifier": "all sequences of device moves, all particles", "why_tests_cant": "unbounded call histories", "anchors": ["src/pymiediff/main.py:Particle.set_device", "src/pymiediff/materials/mat.py:MatDatabase.set_device"]}
{"id": "C39", "title": "Particles are independent objects", "statement": "Constructing a second particle with an already used material object leaves the first particle usable on its own device.", "quantifier": "all devices and shared materials", "why_tests_cant": "aliasing across objects", "anchors": ["src/pymiediff/main.py:Particle.__init__"]}
{"id": "C40", "title": "Squeezing loses nothing", "statement": "The dictionaries returned by Particle methods contain exactly the entries of the functional API results in the same order with singleton axes removed.", "quantifier": "all shapes", "why_tests_cant": "all ranks and sizes", "anchors": ["src/pymiediff/helper/helper.py:_squeeze_dimensions", "src/pymiediff/main.py:Particle.get_cross_sections"]}
{"id": "C41", "title": "Near-field layer amplitudes satisfy the boundary conditions at every interface", "statement": "For backend 'pena', at every interface the amplitudes a_l,b_l,c_l,d_l computed by nearfields make tangential E and H of both polarisations continuous, for every order and any number of layers, with respect to the computed radial functions (before the core amplitudes are zeroed).", "quantifier": "all L, materials, orders where no safeguard fires", "why_tests_cant": "unbounded layer recursion", "anchors": ["src/pymiediff/multishell.py:nearfields"]}
{"id": "C42", "title": "Zeroing the irregular core amplitudes is harmless", "statement": "In nearfields(pena) the irregular amplitudes a_0, b_0 of the core that are overwritten by zero are already exactly zero for every order n >= 2 (and proportional to the n=1 seed defect otherwise), so fields inside stay consistent with fields outside.", "quantifier": "all L, materials, orders n >= 2 where no safeguard fires", "why_tests_cant": "combines outward and inward recursions over all layers", "anchors": ["src/pymiediff/multishell.py:nearfields", "src/pymiediff/multishell.py:_miecoef_pena"]}
{"id": "C43", "title": "Every probe point is treated in exactly one region", "statement": "For strictly increasing radii every probe radius belongs to exactly one region (a point on an interface to the inner one); E_t equals E_s + E_i outside and E_s inside, same for H.", "quantifier": "all radii, layer counts, probe points", "why_tests_cant": "partition over a continuum and all L", "anchors": ["src/pymiediff/multishell.py:nearfields"]}
{"id": "C44", "title": "Near fields are linear in the incident amplitude", "statement": "Scaling E_0 by any complex factor scales E_i, E_s, E_t, H_i, H_s, H_t by it.", "quantifier": "all inputs, all complex factors", "why_tests_cant": "universally quantified linearity", "anchors": ["src/pymiediff/multishell.py:nearfields"]}
{"id": "C45", "title": "Incident field is an x-polarised plane wave along +z", "statement": "E_i has only an x component E_0 exp(i k z), H_i only a y component n_env times it; for real k its modulus is |E_0| everywhere.", "quantifier": "all points and wavelengths (off the coordinate clamp)", "why_tests_cant": "all points", "anchors": ["src/pymiediff/multishell.py:nearfields", "src/pymiediff/helper/helper.py:transform_xyz_to_spherical"]}
{"id": "C46", "title": "Multi-wavelength near fields (torch/scipy backends)", "statement": "nearfields(backend='torch') for several wavelengths equals the stack of single-wavelength results.", "quantifier": "all spectra lengths", "why_tests_cant": "broadcast collisions depend on the number of wavelengths", "anchors": ["src/pymiediff/multishell.py:nearfields"]}
{"id": "C47", "title": "interp1d is exact piecewise linear interpolation", "statement": "For distinct sample abscissae in any order, interp1d returns the sample value at a sample, the linear interpolant between neighbouring samples, the end values outside, stays within the sample range for real data, and never divides by zero.", "quantifier": "all sample tables (any order), all evaluation points", "why_tests_cant": "arbitrary tables and points", "anchors": ["src/pymiediff/helper/helper.py:interp1d"]}
{"id": "C48", "title": "Memoised permittivities equal fresh evaluations", "statement": "For any sequence of get_epsilon and set_device calls, a MatDatabase returns at each call the value a freshly loaded material would return at that wavelength.", "quantifier": "all call histories", "why_tests_cant": "cache correctness over unbounded histories", "anchors": ["src/pymiediff/materials/mat.py:MatDatabase._get_eps_single_wl", "src/pymiediff/materials/mat.py:MatDatabase.get_epsilon"]}
{"id": "C49", "title": "Memoised permittivities stay differentiable", "statement": "Each get_epsilon call returns a value connected to the wavelength tensor passed in that call.", "quantifier": "all call histories", "why_tests_cant": "history dependent autograd graph", "anchors": ["src/pymiediff/materials/mat.py:MatDatabase._get_eps_single_wl"]}
{"id": "C50", "title": "Tabulated data become eps = (n + i k)^2 in nanometres", "statement": "Loading a tabulated n/k table yields for every non-empty row the wavelength in nm and eps with Re = n^2-k^2, Im = 2nk, missing k meaning 0, blank rows ignored, order preserved; Im eps >= 0 whenever n,k >= 0.", "quantifier": "all tables", "why_tests_cant": "all row layouts", "anchors": ["src/pymiediff/materials/mat.py:_load_tabulated"]}
{"id": "C51", "title": "Sellmeier evaluation", "statement": "For formula-1 data get_epsilon returns 1 + c0 + sum_i B_i w^2/(w^2 - C_i^2) with w in micrometres, for every number of terms.", "quantifier": "all coefficient lists of odd length, all wavelengths off the poles", "why_tests_cant": "any number of terms", "anchors": ["src/pymiediff/materials/mat.py:MatDatabase._eval"]}
{"id": "C52", "title": "Unsupported dispersion formulas are rejected at construction", "statement": "MatDatabase raises ValueError for an unknown dispersion model type (as its docstring says).", "quantifier": "all formula types", "why_tests_cant": "documentation claim about error timing", "anchors": ["src/pymiediff/materials/mat.py:MatDatabase.__init__"]}
{"id": "C53", "title": "Coordinate round trip", "statement": "transform_spherical_to_xyz(transform_xyz_to_spherical(x,y,z)) = (x,y,z) for every point away from the clamp cone around the z axis and off x = 0, and r is always the exact Euclidean norm.", "quantifier": "all points", "why_tests_cant": "all quadrants and signs", "anchors": ["src/pymiediff/helper/helper.py:transform_xyz_to_spherical", "src/pymiediff/helper/helper.py:transform_spherical_to_xyz"]}
{"id": "C54", "title": "Field basis change is orthogonal", "statement": "transform_fields_spherical_to_cartesian preserves the Euclidean norm and inner products of complex fields for every theta, phi and maps the radial unit field to the position direction.", "quantifier": "all angles and fields", "why_tests_cant": "all angles", "anchors": ["src/pymiediff/helper/helper.py:transform_fields_spherical_to_cartesian"]}
{"id": "C55", "title": "Rotation helpers are proper rotations", "statement": "rotation_x/y/z(alpha) are orthogonal with determinant 1, compose additively in the angle, and fix their axis.", "quantifier": "all angles", "why_tests_cant": "continuum", "anchors": ["src/pymiediff/helper/tg.py:rotation_x", "src/pymiediff/helper/tg.py:rotation_y", "src/pymiediff/helper/tg.py:rotation_z"]}
{"id": "C56", "title": "Plane-wave frames", "statement": "For every supported plane and polarisation _plane_wave_rotation returns a proper rotation sending the native propagation direction to the requested k and native E direction to the requested e (orthogonal to k), and evaluating near fields through it (rotate points, rotate fields back) preserves field norms; unsupported plane/polarisation raises ValueError.", "quantifier": "all angles, planes, polarisations", "why_tests_cant": "continuum of angles", "anchors": ["src/pymiediff/helper/tg.py:_plane_wave_rotation", "src/pymiediff/helper/tg.py:_eval_mie"]}
{"id": "C57", "title": "Illumination set", "statement": "setup_plane_waves_configs(n, planes) returns exactly 2*n*len(planes) configurations, each (angle, plane, polarisation) combination once, angles equally spaced in [0, 2*pi).", "quantifier": "all n and plane lists", "why_tests_cant": "all n", "anchors": ["src/pymiediff/helper/tg.py:setup_plane_waves_configs"]}
{"id": "C58", "title": "Automatic backend choice is always supported", "statement": "_resolve_mie_backend never selects a backend that rejects the particle's layer count, and explicit choices are respected.", "quantifier": "all particles", "why_tests_cant": "all layer counts", "anchors": ["src/pymiediff/helper/tg.py:_resolve_mie_backend", "src/pymiediff/multishell.py:mie_coefficients"]}
{"id": "C59", "title": "n_env override of the torchgdm helpers works when consistent", "statement": "mie_ab_sphere_3d_AD / extract_GPM_sphere_miediff accept n_env equal to the particle's environment index.", "quantifier": "all consistent n_env", "why_tests_cant": "error path not exercised", "anchors": ["src/pymiediff/helper/tg.py:mie_ab_sphere_3d_AD", "src/pymiediff/helper/tg.py:extract_GPM_sphere_miediff"]}
{"id": "C60", "title": "Effective dipole polarisability", "statement": "StructAutodiffMieEffPola3D builds a block-diagonal isotropic 6x6 polarisability (electric 3i a_1/(2 k0^3 n_env), magnetic 3i b_1/(2 k0^3 n_env^3)), and its extinction n_env*4*pi*k0*Im(alpha)-type expression equals the dipole part of cs_ext.", "quantifier": "all a_1, b_1, k0, n_env", "why_tests_cant": "continuum", "anchors": ["src/pymiediff/helper/tg.py:StructAutodiffMieEffPola3D"]}
{"id": "C61", "title": "Layout of the torchgdm Mie coefficients", "statement": "mie_ab_sphere_3d_AD returns tensors of shape (N_wavelengths, n_max).", "quantifier": "all n_max >= 1, all spectra lengths", "why_tests_cant": "size-dependent squeeze", "anchors": ["src/pymiediff/helper/tg.py:mie_ab_sphere_3d_AD"]}
{"id": "C62", "title": "Combining GPM structures", "statement": "combine_gpm_structures_autodiff preserves order and count of structures, rejects an empty list and multi-entry structures.", "quantifier": "all lists", "why_tests_cant": "all lists", "anchors": ["src/pymiediff/helper/tg.py:combine_gpm_structures_autodiff"]}
{"id": "C63", "title": "Zero-filled field scatter", "statement": "The patched zero-fill routine writes the k-th solved value at the k-th polarisable slot and zero elsewhere, without changing any other entry.", "quantifier": "all masks and values", "why_tests_cant": "all masks", "anchors": ["src/pymiediff/helper/tg.py:patch_torchgdm_autodiff"]}
{"id": "C64", "title": "Documented integer n_add works in the torch recurrences", "statement": "sph_jn_torch_via_rec accepts an integer n_add as documented.", "quantifier": "all integers n_add >= 1", "why_tests_cant": "documented option never exercised", "anchors": ["src/pymiediff/special.py:sph_jn_torch_via_rec"]}
{"id": "C65", "title": "Small arguments work for any tensor rank", "statement": "sph_jn_torch evaluates tensors of any rank containing entries below the small-argument threshold.", "quantifier": "all ranks and shapes", "why_tests_cant": "rank-dependent broadcast", "anchors": ["src/pymiediff/special.py:sph_jn_torch"]}
{"id": "C66", "title": "Plane-wave expansion coefficients", "statement": "plane_wave_expansion(n) returns i^j (2j+1)/(j(j+1)) for j = 1..n: modulus (2j+1)/(j(j+1)) and phase period 4, consistent with the expansion factor used by nearfields.", "quantifier": "all n", "why_tests_cant": "all orders", "anchors": ["src/pymiediff/helper/helper.py:plane_wave_expansion", "src/pymiediff/multishell.py:nearfields"]}
{"id": "C67", "title": "Coefficients are right at every size parameter", "statement": "For every outer size parameter the pena a_n, b_n approach the Lorenz-Mie coefficients as the depth grows.", "quantifier": "all real size parameters, including the zeros of sin x", "why_tests_cant": "psi_n is built upwards from psi_0 = sin x; the defect sits exactly at x = k*pi and is invisible on sampled spectra", "anchors": ["src/pymiediff/special.py:pena_psi_zeta_n", "src/pymiediff/multishell.py:_miecoef_pena"]}
{"id": "C68", "title": "Torch core-shell coefficients converge to the exact ones", "statement": "As the depth of sph_jn_torch_via_rec grows, j_n tends to the true spherical Bessel function and all eight coefficients of _miecoef tend to the unique solution of the Bohren-Huffman system of the true functions; for lossless spheres that system is never singular.", "quantifier": "all complex arguments with |z| >= 1e-10, sin z != 0; all orders", "why_tests_cant": "limit statement over an unbounded depth", "anchors": ["src/pymiediff/special.py:sph_jn_torch_via_rec", "src/pymiediff/multishell.py:_miecoef"]}
{"id": "C69", "title": "Batched cross sections are the scalar formulas entry by entry", "statement": "For coefficient tensors of shape (n_max, N_part, N_k0), cross_sections returns (N_part, N_k0) cross sections and efficiencies and (2, n_max, N_part, N_k0) multipole tables whose entries are the scalar Bohren-Huffman sums of the particle's own coefficients, with electric terms at index 0.", "quantifier": "all n_max, N_part, N_k0 and coefficient values", "why_tests_cant": "broadcasting mistakes only show for particular size combinations", "anchors": ["src/pymiediff/multishell.py:cross_sections"]}
{"id": "C70", "title": "Batched amplitudes are the scalar formulas entry by entry", "statement": "For a 1-D list of angles angular_scattering returns (N_part, N_k0, N_theta) tensors whose entries are S1, S2 and the intensities of that particle, wavelength and angle.", "quantifier": "all sizes, coefficients and angles", "why_tests_cant": "broadcasting mistakes only show for particular size combinations", "anchors": ["src/pymiediff/multishell.py:angular_scattering"]}
{"id": "C71", "title": "A scalar scattering angle is accepted or rejected, not misread", "statement": "angular_scattering with a 0-d theta returns the amplitudes at that angle (or raises).", "quantifier": "all coefficients, one particle", "why_tests_cant": "silent broadcasting", "anchors": ["src/pymiediff/multishell.py:angular_scattering"]}
{"id": "C72", "title": "A particle's coefficients are those of its materials", "statement": "Particle.get_mie_coefficients (pena) succeeds whenever every material returns a permittivity at every wavelength, and entry (i, k) of a_n, b_n is the scalar recursion evaluated with the radii and with the permittivities the material objects return at wavelength 2*pi/k0_k, for every device and every earlier use of the materials.", "quantifier": "all particles, layer counts, spectra, devices, material histories", "why_tests_cant": "whole-stack statement over unbounded spectra and histories", "anchors": ["src/pymiediff/main.py:Particle.get_mie_coefficients", "src/pymiediff/multishell.py:mie_coefficients", "src/pymiediff/main.py:MatDatabase.get_epsilon"]}
{"id": "C74", "title": "Near fields satisfy Maxwell's interface conditions", "statement": "At every interface of a layered sphere the tangential E and H fields, the normal component of eps*E and the normal component of H built by nearfields (pena) from the layer amplitudes agree on both sides, order by order.", "quantifier": "all layer stacks, interfaces, angles, incident amplitudes and orders n >= 2 (order 1 up to the seed)", "why_tests_cant": "every stack, angle and interface", "anchors": ["src/pymiediff/multishell.py:nearfields", "src/pymiediff/special.py:vsh_pena"]}
{"id": "C75", "title": "Field normalisation before the GPM fit", "statement": "The near-field lists of one illumination are all scaled by one common positive factor, after which every component has modulus at most 1 (and, unless the fields are below 1e-30, one of them has modulus exactly 1), so ratios of scattered to incident fields are unchanged.", "quantifier": "all non-empty field lists", "why_tests_cant": "all fields", "anchors": ["src/pymiediff/helper/tg.py:extract_GPM_sphere_miediff"]}
{"id": "C76", "title": "Block structure of the patched interaction matrix", "statement": "The patched _get_full_Gdotalpha returns the matrix whose block (i,j) is G_ij alpha_j for i different from j and S_i alpha_i (self term) for i = j, with no other entry.", "quantifier": "all numbers and sizes of blocks, all matrices", "why_tests_cant": "all block sizes", "anchors": ["src/pymiediff/helper/tg.py:patch_torchgdm_autodiff"]}
{"id": "C77", "title": "The expansions of the near-field code solve Maxwell's equations", "statement": "With the true Riccati-Bessel functions, the E and H series that nearfields builds in every region (core, shells, scattered field outside), for any amplitudes and any truncation order, satisfy curl E = i k0 H, curl H = -i k0 m^2 E and div E = div H = 0 of that region's medium, so E and H belong to each other.", "quantifier": "all complex indices, k0, amplitudes, orders and points off the polar axis", "why_tests_cant": "a wrong sign or factor in one of the eight harmonics keeps every shape and most cross-checks intact", "anchors": ["src/pymiediff/multishell.py:nearfields", "src/pymiediff/special.py:vsh", "src/pymiediff/special.py:vsh_pena", "src/pymiediff/special.py:pi_tau"]}
{"id": "C78", "title": "Near fields converge to the exact boundary-value problem", "statement": "As the recurrence depth grows, the pena layer amplitudes tend to the unique solution of the interface equations with a regular core and a unit incident wave, the Cartesian fields returned by nearfields tend to the exact expansions of the point's region, and those expansions satisfy the interface conditions at every layer boundary.", "quantifier": "all layer stacks, points and orders where no safeguard is active in the limit", "why_tests_cant": "limit over an unbounded depth, all numbers of layers", "anchors": ["src/pymiediff/multishell.py:nearfields", "src/pymiediff/multishell.py:_miecoef_pena", "src/pymiediff/special.py:vsh_pena"]}
{"id": "C79", "title": "The incident expansion sums to the incident plane wave", "statement": "The multipole expansion that the near-field amplitudes presuppose for the illumination (c = d = 1, a = b = 0) converges, at every point and for every complex radial argument other than 0, to an x-polarised plane wave along z, and this wave is exactly the incident field E_i, H_i that nearfields returns and adds.", "quantifier": "all points, complex environment indices and field amplitudes; limit over the number of orders", "why_tests_cant": "an infinite vector series at every point of space", "anchors": ["src/pymiediff/multishell.py:nearfields", "src/pymiediff/special.py:vsh_pena"]}
{"id": "C80", "title": "The far zone of the scattered near field is the angular scattering amplitude", "statement": "As the distance grows, rho e^(-i rho) times the scattered field expansion of nearfields tends to the transverse wave with components i E0 cos(phi) S2 and -i E0 sin(phi) S1, where S1 and S2 are those of angular_scattering for the same coefficients; the radial components vanish and H = m r x E.", "quantifier": "all coefficients, truncations, directions and complex wavenumbers; limit r to infinity", "why_tests_cant": "limit at infinity linking two independent parts of the code", "anchors": ["src/pymiediff/multishell.py:nearfields", "src/pymiediff/multishell.py:angular_scattering", "src/pymiediff/special.py:vsh_pena"]}
{"id": "C81", "title": "Near-field power equals the cross sections", "statement": "In a lossless environment the radial Poynting vector of the scattered field expansion of nearfields, integrated over any sphere around the particle, is exactly n |E0|^2 C_sca, and the net power that the total field brings into the sphere is exactly n |E0|^2 C_abs, with C_sca and C_abs as returned by cross_sections for the same coefficients.", "quantifier": "all coefficients, truncations, wavelengths, environment indices and radii", "why_tests_cant": "an identity between integrals of fields and a sum over multipoles", "anchors": ["src/pymiediff/multishell.py:nearfields", "src/pymiediff/multishell.py:cross_sections", "src/pymiediff/special.py:vsh_pena"]}
{"id": "C82", "title": "Passive particles absorb", "statement": "Without gain (Im m^2 >= 0 in every layer, real environment) the exact boundary-value problem of the layered sphere has one and only one solution for every order, and its scattering coefficients satisfy |a_n|^2 <= Re a_n and |b_n|^2 <= Re b_n; so the coefficients computed by _miecoef_pena converge to such values, and every absorption multipole computed by cross_sections is eventually larger than any negative bound as the recurrences start deeper.", "quantifier": "all numbers of layers, orders, passive complex indices and sizes; limit over the recurrence depth", "why_tests_cant": "energy conservation for all lossy stacks, in the limit of the recurrence depth", "anchors": ["src/pymiediff/multishell.py:_miecoef_pena", "src/pymiediff/multishell.py:cross_sections"]}
{"id": "C83", "title": "Gradients of the pena pipeline are the true derivatives", "statement": "When wavenumber, environment, radii, permittivities and scattering angle depend differentiably on a parameter, propagating (value, tangent) pairs through the operations of _miecoef_pena, cross_sections and angular_scattering (the chain rule that automatic differentiation applies) yields the true derivatives of a_n, b_n, of the efficiencies and of the intensities.", "quantifier": "all parametrised particles (any number of layers) and orders at which no guarded denominator sits on its switching threshold and no square root on its cut", "why_tests_cant": "finite differences sample single points; a non-differentiable or detached step would only show in some direction of parameter space", "anchors": ["src/pymiediff/multishell.py:_miecoef_pena", "src/pymiediff/multishell.py:mie_coefficients", "src/pymiediff/multishell.py:cross_sections", "src/pymiediff/multishell.py:angular_scattering"]}
{"id": "C84", "title": "Backward passes of the SciPy-backed Bessel functions are gradients", "statement": "The hand-written backward passes of sph_jn, sph_yn, sph_jn_der, sph_yn_der, sph_h1n and sph_h1n_der return, for every real loss and every order count, the gradient in PyTorch's convention with respect to the argument, and do not modify the argument.", "quantifier": "all losses, orders, tensor ranks and complex arguments other than 0 (the no-modification claim also at 0)", "why_tests_cant": "gradients at isolated points do not show an error in one order or a missing conjugate on the real axis; the write through shared memory is invisible in return values", "anchors": ["src/pymiediff/special.py:_AutoDiffJn", "src/pymiediff/special.py:_AutoDiffdJn", "src/pymiediff/special.py:_AutoDiffYn", "src/pymiediff/special.py:_AutoDiffdYn", "src/pymiediff/special.py:bessel2ndDer", "src/pymiediff/special.py:sph_h1n"]}
{"id": "C85", "title": "The gradient checker compares like with like", "statement": "helper.num_center_diff tends to the derivative in PyTorch's convention as the step goes to 0, and the two arrays returned by funct_grad_checker agree in that limit.", "quantifier": "all orders, tensor shapes and complex arguments other than 0; limit over the step", "why_tests_cant": "limit statement; shapes depend on the order", "anchors": ["src/pymiediff/helper/helper.py:num_center_diff", "src/pymiediff/helper/helper.py:funct_grad_checker"]}
{"id": "C86", "title": "The multipole series converges", "statement": "For a passive layered sphere the coefficients a_n, b_n of the exact boundary-value problem decay faster than any geometric sequence, so the cross sections, the scattering amplitudes (uniformly in the angle) and the electric and magnetic fields in every region (uniformly in the direction) computed from the first N orders converge at that rate as N grows; the limit fields satisfy the boundary conditions at every interface and outside they are the incident plane wave plus the scattered limit; with n_max orders and deep enough recurrences the code is within K q^n_max + eps of the limits, for every q > 0.", "quantifier": "all numbers of layers, passive complex indices without lossless negative permittivity, sizes and angles; limit over the number of orders", "why_tests_cant": "truncation error of an infinite series, for every particle; a test only compares two truncations", "anchors": ["src/pymiediff/multishell.py:cross_sections", "src/pymiediff/multishell.py:angular_scattering", "src/pymiediff/multishell.py:_miecoef_pena", "src/pymiediff/multishell.py:nearfields"]}
{"id": "C73", "title": "Batched near fields of the pena backend", "statement": "nearfields(backend='pena') succeeds whenever mie_coefficients does, returns six tensors of shape (N_part, N_k0, N_pos, 3), and every entry is the scalar field of its particle, wavelength and position; evaluating each particle and wavelength on its own with the same n_max gives the same numbers.", "quantifier": "all batches of particles, wavelengths and probe points, any number of layers and orders", "why_tests_cant": "tests use few shapes; broadcasting collisions and mask mix-ups depend on the sizes", "anchors": ["src/pymiediff/multishell.py:nearfields", "src/pymiediff/multishell.py:_miecoef_pena", "src/pymiediff/special.py:vsh_pena"]}
{"id": "C87", "title": "Gradients of the near fields are the true derivatives", "statement": "When particle, wavenumber, wave amplitude and probe position depend differentiably on a parameter, propagating (value, tangent) pairs through nearfields(backend='pena') yields the true derivatives of the scattered, incident and total electric and magnetic fields, inside and outside the particle; the spherical coordinates of a moving Cartesian position carry their derivatives too, except on the plane x = 0, which the code shifts.", "quantifier": "all parametrised particles (any number of layers and orders), positions off the interfaces and off the coordinate singularities, no guarded denominator on its threshold", "why_tests_cant": "masked assignment and branch-wise coordinates make the gradient right or wrong per region; finite differences sample single points", "anchors": ["src/pymiediff/multishell.py:nearfields", "src/pymiediff/special.py:vsh_pena", "src/pymiediff/helper/helper.py:transform_xyz_to_spherical", "src/pymiediff/helper/helper.py:transform_fields_spherical_to_cartesian"]}
{"id": "C88", "title": "Near fields of particle objects are the scalar fields of their materials", "statement": "Particle.get_nearfields with the pena backend succeeds for every particle made of materials, with increasing radii, any number of wavelengths and any (N, 3) probe tensor; entry (wavelength, position, component) of each of the six fields is the scalar field at that wavelength with the permittivities the materials give there. Device moves and other calls never change the result, other probe shapes are refused before anything is evaluated, and the torch and scipy backends refuse any number of wavelengths other than one or three.", "quantifier": "all heaps reachable by constructing, moving and evaluating particles; all materials, layer counts, wavenumber vectors, probe tensors, amplitudes and n_max", "why_tests_cant": "tests evaluate one gold sphere on cpu at a few wavelengths and compare shapes; the composition of interpolation, broadcasting, recursion, region selection and squeezing for arbitrary particles and histories is not reachable by examples", "anchors": ["src/pymiediff/main.py:385-424", "src/pymiediff/multishell.py:993-1291"]}
{"id": "C89", "title": "Training data of the GPM extraction holds the fields of the requested sources", "statement": "extract_GPM_sphere_miediff with the pena backend and no index override always obtains its training data: one record per wavelength, arrays of 6*n_angles rows, and the row of angle a, plane and polarisation holds the scattered fields at the probe points and the incident fields at the source points of the sphere under the plane wave with that direction and polarisation, all four divided by one positive number that makes the largest component one. The incident rows are that plane wave off the clamp cone around its direction. An index given as a number and an angle count below -1 always fail.", "quantifier": "all particles of materials, wavelength lists, angle counts, point tensors, n_max", "why_tests_cant": "the tests run one sphere and only check that some object is returned; a transposed rotation, swapped rows or a per-field normalisation would still give an object", "anchors": ["src/pymiediff/helper/tg.py:374-442", "src/pymiediff/helper/tg.py:444-608"]}
{"id": "C90", "title": "The limits of the near-field series solve the scattering problem", "statement": "For a passive layered sphere in a lossless environment the fields obtained by letting the number of orders of the nearfields expansions grow satisfy Maxwell's equations in every region (not only their partial sums do), the boundary conditions at every interface, and outside they are the incident plane wave plus a scattered field that satisfies Maxwell's equations itself; wherever the index of the region is real, the Cartesian fields returned by the code with n_max orders and deep enough recurrences are within K q^n_max + eps of such a solution, at the radius displaced by the 1e-8 offset of the code.", "quantifier": "all passive stacks, orders, wavelengths, environments and points off the interfaces and off the polar axis; limits over the number of orders and the recurrence depth", "why_tests_cant": "termwise differentiation of infinite vector series at every point of space", "anchors": ["src/pymiediff/multishell.py:nearfields", "src/pymiediff/special.py:vsh_pena", "src/pymiediff/multishell.py:_miecoef_pena"]}
{"id": "C91", "title": "D1n_torch and D3n_torch compute logarithmic derivatives", "statement": "The unguarded downward recurrence D1n_torch tends to psi_n'/psi_n as its depth grows wherever psi does not vanish from that order on, with an explicit geometric error bound once n >= |z|; D3n_torch returns the pair zeta_n'/zeta_n and psi_n zeta_n, exactly when given the exact D1 and in the limit when given the output of D1n_torch.", "quantifier": "all orders and complex arguments with |z| >= 1e-10 where the functions do not vanish; limits over the depth", "why_tests_cant": "no test calls these functions; limits and division-free closed forms cannot be sampled", "anchors": ["src/pymiediff/special.py:1208-1273", "src/pymiediff/special.py:1276-1326"]}
{"id": "C92", "title": "The log-derivative variants deliver tables of psi, xi and Q", "statement": "psi_torch_logdir, xi_torch_logdir and Ql_torch return a tensor of the functions they are named after for every particle. (False: none of them ever returns a tensor.)", "quantifier": "all orders, layer tensors and shapes", "why_tests_cant": "the functions are never called in the package or the tests", "anchors": ["src/pymiediff/special.py:1329-1379", "src/pymiediff/special.py:1382-1412", "src/pymiediff/special.py:1415-1448"]}
{"id": "C93", "title": "Every bundled material is found and physical", "statement": "Each of the 17 data files of the package is found under its material name in any capitalisation and in any order of the directory listing; exactly the listed names are accepted; each material loads on every device and, whatever was evaluated before, returns at every scalar or vector of wavelengths (tables: all wavelengths; dispersion formulas: their validity range) permittivities with Im > 0, or Im = 0 and Re > 0. (Outside the range of a formula the value is extrapolated silently and can be negative; list_available_materials(verbose=True) always raises; MatDatabase() returns an object without data.)", "quantifier": "all 17 files, names, directory orders, devices, evaluation histories, wavelengths", "why_tests_cant": "tests load a few materials at a few wavelengths; an entry error in one of the tables or a bad weight between two rows shows only there", "anchors": ["src/pymiediff/main.py:22-37", "src/pymiediff/main.py:MatDatabase.__init__", "src/pymiediff/main.py:MatDatabase.get_epsilon", "src/pymiediff/materials/data"]}
{"id": "C94", "title": "Particles of bundled materials are well-posed and absorb", "statement": "For any layered particle object whose layers are bundled materials (in any state of use) or constants of physical permittivity, in a transparent environment, get_mie_coefficients with the pena backend answers at every list of wavelengths, its entries are the scalar recursion on the permittivities the materials give, the exact boundary-value problem behind every entry has one and only one solution, and the cross sections of that solution converge with the number of orders to values with 0 <= C_sca <= C_ext.", "quantifier": "all layer counts, increasing radii, wavelengths in range, devices, histories, n_max", "why_tests_cant": "the chain from data files to energy balance over all wavelengths", "anchors": ["src/pymiediff/main.py:Particle.get_mie_coefficients", "src/pymiediff/main.py:MatDatabase.get_epsilon", "src/pymiediff/multishell.py:_miecoef_pena", "src/pymiediff/multishell.py:cross_sections"]}
{"id": "C95", "title": "Gradients through material permittivities are the true derivatives", "statement": "Propagating (value, tangent) pairs through interp1d and MatDatabase.get_epsilon yields the derivative of the permittivity with respect to the wavelength, for tables and dispersion formulas, for one and for several wavelengths, and composed with wl0 = 2 pi/k0 and the pena pipeline the true slope of the spectra of dispersive particles. (False at the sampling points of a table, where the slope of the left interval is returned, and for a wavelength that occurred before, also within the same vector: the memo returns the tangent of the first occurrence.)", "quantifier": "all tables without repeated abscissae, Sellmeier coefficients, wavelength paths, caches, layered particles", "why_tests_cant": "piecewise formulas with in-place masks and a hidden memo; a gradient test uses fresh wavelengths and single points", "anchors": ["src/pymiediff/helper/helper.py:interp1d", "src/pymiediff/main.py:MatDatabase._eval", "src/pymiediff/main.py:MatDatabase._get_eps_single_wl", "src/pymiediff/main.py:MatDatabase.get_epsilon", "src/pymiediff/main.py:258-265"]}
{"id": "C96", "title": "Small particles obey electrostatics", "statement": "For a particle much smaller than the wavelength the exact Mie problem behind the pena pipeline reduces to the electrostatic transmission problem, for every order, any number of layers and complex permittivities: a_n = k^(2n+1) i (n+1)/(n (2n+1)!! (2n-1)!!) B_n (1 + O(k^2)) with B_n the induced multipole, b_n = O(k^(2n+3)), all amplitudes inside the layers tend to the electrostatic ones, the cross sections follow Rayleigh's laws and the polarizabilities for TorchGDM are those of Clausius-Mossotti (solid and coated spheres in closed form).", "quantifier": "all orders, layer counts, non-zero complex indices and radii, cut-offs; well-posedness of the electrostatics for all passive particles without lossless metal", "why_tests_cant": "an asymptotic statement: tests compare one or two small spheres to a quasi-static formula within a tolerance and cannot cover orders, shells or the rate", "anchors": ["src/pymiediff/multishell.py:mie_coefficients", "src/pymiediff/multishell.py:cross_sections", "src/pymiediff/special.py:pena_D1_n", "src/pymiediff/helper/tg.py:852-884"]}
{"id": "C97", "title": "Rounded arithmetic approaches exact arithmetic", "statement": "If every elementary operation of the pena pipeline (real +, -, *, /, sqrt, sin, cos, exp, integer conversion, pi, complex square root) is computed with relative error at most u, and the inputs are rounded too, then the Mie coefficients, the efficiencies of cross_sections and the intensities of angular_scattering converge to the exact-arithmetic ones as u -> 0, for every particle for which no guarded denominator lies on its switching threshold. The binary arithmetic with p fractional bits is such an arithmetic with u = 2^-p, so enough bits reach every tolerance.", "quantifier": "all arithmetics of relative precision u, all tolerances, all smooth layered particles and rounded inputs", "why_tests_cant": "tests run one arithmetic (double precision) and compare to another library computed in the same one; they cannot quantify over arithmetics nor show that refinement converges to the exact value", "anchors": ["src/pymiediff/multishell.py:mie_coefficients", "src/pymiediff/multishell.py:cross_sections", "src/pymiediff/multishell.py:angular_scattering", "src/pymiediff/special.py:pena_D1_n", "src/pymiediff/special.py:pena_D3_n", "src/pymiediff/special.py:pena_Q_n"]}
{"id": "C98", "title": "Relative accuracy for very small particles", "statement": "The pena recurrences should keep their relative accuracy for small size parameters. They do not (refuted): in every arithmetic that rounds with small relative error and absorbs terms below a fraction v of a sum (rounding to nearest with p bits: v = 2^-(p+3)), a real size parameter with x^2 <= v/2 makes the computed D_n equal (n+1)/x exactly and every computed psi_n, n >= 1, exactly 0. Consequently all coefficients of order >= 2 vanish for every layered particle, every sphere gets a spurious magnetic dipole |b_1| >= x^3/10 whatever its index, and a sphere of the surrounding material, which scatters exactly nothing in exact arithmetic, scatters like a Rayleigh sphere.", "quantifier": "all arithmetics that are precise and absorbing (all p for rounding to nearest), all small real size parameters, all layers (orders >= 2) or all real indices (order 1), all cut-offs", "why_tests_cant": "the effect needs size parameters around the square root of the unit roundoff (1e-9 in double, 5e-5 in single precision), which no test visits, and a test sees one number instead of the mechanism", "anchors": ["src/pymiediff/special.py:pena_D1_n", "src/pymiediff/special.py:pena_psi_zeta_n", "src/pymiediff/multishell.py:mie_coefficients"]}
{"id": "C99", "title": "The patched solver returns the self-consistent fields of coupled particles", "statement": "_solve_no_inplace returns, for every illumination, electric and magnetic fields of a local field that equals the incident field plus everything the moments induced in all bodies radiate back (through G between bodies, through the self term within one): E holds components 1-3 and H components 4-6 at each polarisable position, both are zero elsewhere. The field is unique and superposes when no field survives without illumination; the call fails only if the linear solver does, if there is no illumination, or if the polarisabilities do not match the positions.", "quantifier": "all numbers and sizes of bodies, matrices, masks, illuminations and exact linear solvers", "why_tests_cant": "all coupled systems; torchgdm is needed to run it", "anchors": ["src/pymiediff/helper/tg.pypatch_torchgdm_autodiff"]}
{"id": "C100", "title": "Azimuthal dependence and mirror symmetries of the near fields", "statement": "At fixed distance and polar angle the scattered (inside: internal) fields of nearfields(backend='pena') depend on the azimuth through three numbers only, E like a vector driven along x and H like one driven along y. Probe positions that are mirror images in the plane y = 0 get mirror-image incident, scattered and total fields (E as a vector, H as an axial vector), mirror images in the plane x = 0 the same with the opposite sign, and on the plane y = 0 the components E_y, H_x, H_z vanish exactly.", "quantifier": "all batches of particles, wavelengths, positions, layers and orders (mirror in x: positions with x other than 0, which the code shifts)", "why_tests_cant": "the symmetry holds for every position and multipole order at once; a wrong sign in one harmonic breaks it only off the axes", "anchors": ["src/pymiediff/multishell.py:nearfields", "src/pymiediff/special.py:vsh_pena", "src/pymiediff/helper/helper.py:transform_xyz_to_spherical", "src/pymiediff/helper/helper.py:transform_fields_spherical_to_cartesian"]}
{"id": "C101", "title": "The default recurrence depth is accurate", "statement": "pena_D1_n starts its downward recurrence from zero at n_max + 15. The value returned for an order n >= |z| is within 2 (|z|/(|z|+29))^29 of psi_n'/psi_n whenever n_max >= |z| + 14 (below 1e-16 for |z| <= 10), in general within a product of one factor (|z|/(2k+1-|z|))^2 per order crossed; the automatic n_max of the pena backend is that large for every argument of every layer, particle and wavelength; every coefficient tends to the exact one as n_max grows at this depth; and coefficients do not depend appreciably on how many orders are requested. (The last part is false: with n_max = 1 the depth is 16 whatever the argument, at every real z >= 1000 the first log-derivative comes out near -z/140, and a sphere of index 1600/801 whose b_1 is exactly 1 gets |b_1| < 1/5.)", "quantifier": "all complex arguments, orders and depths; all batches for the automatic n_max", "why_tests_cant": "errors of a truncated recurrence are invisible next to the neighbouring backend that truncates too; the dangerous arguments are far from those tested", "anchors": ["src/pymiediff/special.py:pena_D1_n", "src/pymiediff/helper/helper.py:get_truncution_criteroin_pena2009", "src/pymiediff/multishell.py:_miecoef_pena"]}
{"id": "C102", "title": "Near fields are scale invariant", "statement": "Multiplying all radii and probe coordinates by s > 0 and dividing all wavenumbers by s leaves all six field tensors of nearfields(backend='pena') unchanged, with given or automatic n_max, inside and outside the particle. Positions with x = 0 are excluded, and must be: the code moves them to x = 1e-10 whatever the unit of length, which changes their azimuth.", "quantifier": "all s > 0, batches, layers, orders and positions with x other than 0", "why_tests_cant": "an absolute length hidden in a recurrence or mask shows only when units are changed; tests use nanometres throughout", "anchors": ["src/pymiediff/multishell.py:nearfields", "src/pymiediff/special.py:vsh_pena", "src/pymiediff/helper/helper.py:transform_xyz_to_spherical"]}
{"id": "C103", "title": "Near fields depend on relative indices only", "statement": "Multiplying every permittivity (environment, core, all shells) by q^2 and dividing the wavenumbers by q leaves the incident, scattered and total electric fields of nearfields(backend='pena') unchanged at every position and multiplies the magnetic fields by q.", "quantifier": "all q > 0, batches, layers, orders and positions; environments other than 0", "why_tests_cant": "an index used without its environment somewhere in the chain is invisible in vacuum, where nearly all tests run", "anchors": ["src/pymiediff/multishell.py:nearfields", "src/pymiediff/special.py:vsh_pena", "src/pymiediff/multishell.py:_miecoef_pena"]}
{"id": "C104", "title": "Splitting a layer is unobservable in the near fields", "statement": "Describing a homogeneous shell as two shells of the same permittivity, with a fictitious interface between them, leaves scattered, internal and total fields of nearfields(backend='pena') unchanged at every point, on every multipole order. Splitting the core leaves them unchanged at points inside its inner part and outside its outer part.", "quantifier": "all stacks, orders, depths and points for which no denominator safeguard fires", "why_tests_cant": "the region masks, the layer indices and the amplitude lists all shift by one; an off-by-one shows only when the description, not the particle, changes", "anchors": ["src/pymiediff/multishell.py:nearfields", "src/pymiediff/multishell.py:_miecoef_pena"]}
{"id": "C105", "title": "Automatic support points of the GPM extraction lie inside the particle", "statement": "Given a number instead of positions, extract_GPM_sphere_miediff places exactly that many different dipole positions, centred on the particle, none farther from the centre than nine tenths of the enclosing radius, and obtains its training data there; floats are rounded down, None means 36, and counts below one fail with ValueError.", "quantifier": "all counts, radii, particles, wavelength lists", "why_tests_cant": "a point outside the sphere or a coincident pair for one count in thousands ruins the fit silently; tests use one count", "anchors": ["src/pymiediff/helper/tg.py:extract_GPM_sphere_miediff", "src/pymiediff/helper/tg.py:_get_enclosing_radius"]}
{"id": "C106", "title": "Gradients of the torch backend are the true derivatives", "statement": "When wavenumber, environment, radii, permittivities and scattering angle of a sphere or core-shell particle depend differentiably on a parameter, propagating (value, tangent) pairs through the default torch backend (both Bessel recurrences, derivatives, the sixteen radial functions and the common-subexpression quotients) yields the true derivatives of all eight coefficients, of the efficiencies and of the intensities; the automatic recurrence depth is locally constant.", "quantifier": "all parametrised core-shell particles, orders and depths at which the four Bessel arguments exceed 1e-10, recurrences and determinants do not vanish and no depth steps", "why_tests_cant": "gradient checks sample single points and mostly a_n and b_n; an error in one tangent of forty intermediate quotients shows only in some coefficient", "anchors": ["src/pymiediff/multishell.py:_miecoef", "src/pymiediff/special.py:sph_jn_torch_via_rec", "src/pymiediff/special.py:sph_yn_torch", "src/pymiediff/multishell.py:mie_coefficients", "src/pymiediff/multishell.py:cross_sections", "src/pymiediff/multishell.py:angular_scattering"]}
{"id": "C107", "title": "Rounded arithmetic approaches exact arithmetic in the torch backend", "statement": "Run with every operation rounded to relative precision u and with rounded inputs, the torch backend returns all eight coefficients, efficiencies and intensities that approach those of exact arithmetic as u goes to 0; the automatic recurrence depth found from rounded moduli equals the exact one, so binary arithmetic with enough bits reaches every tolerance.", "quantifier": "all arithmetics, core-shell particles and orders at which the four Bessel arguments exceed 1e-10, recurrences and determinants do not vanish and 3/2 |z| is no integer", "why_tests_cant": "tests compare two precisions at a few points; a step that amplifies errors without bound, or a depth that flips with the precision, shows only elsewhere", "anchors": ["src/pymiediff/multishell.py:_miecoef", "src/pymiediff/special.py:sph_jn_torch_via_rec", "src/pymiediff/special.py:sph_yn_torch", "src/pymiediff/multishell.py:mie_coefficients", "src/pymiediff/multishell.py:cross_sections", "src/pymiediff/multishell.py:angular_scattering"]}
{"id": "C108", "title": "Rounded arithmetic approaches exact arithmetic in the near fields", "statement": "Run with every operation rounded to relative precision u and with rounded inputs, nearfields returns scattered, incident and total fields that approach those of exact arithmetic as u goes to 0, and finds the region of exact arithmetic, at every Cartesian position off the interfaces; on an interface the region can differ whatever the number of bits.", "quantifier": "all arithmetics, multilayer particles, incident amplitudes and positions off the interfaces, off the plane x = 0 and off the clamped cone around the z axis, at which no guarded denominator lies on its switching threshold", "why_tests_cant": "tests evaluate a few points in one precision; a backward recursion of the amplitudes that amplifies rounding, or a comparison that flips near an interface, shows only elsewhere", "anchors": ["src/pymiediff/multishell.py:nearfields", "src/pymiediff/special.py:vsh_pena", "src/pymiediff/helper/helper.py:transform_fields_spherical_to_cartesian", "src/pymiediff/helper/helper.py:transform_xyz_to_spherical"]}

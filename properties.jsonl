{"id": "C01", "title": "fft_pad delivers the requested shape", "statement": "For an array of any rank and any target shape of the same rank whose entries are non-negative sizes or None, fft_pad returns an array whose axis i has exactly the requested length (None keeps the old length), whether the axis is padded, cropped or left alone.", "quantifier": "every rank, every pair of old/new axis lengths (all four parity combinations, grow, shrink and equal, mixed per axis), every pad mode", "why_tests_cant": "the doctests check six (old, new) pairs on one axis; parity cases interact with sign and with per-axis mixing", "anchors": ["pyotf/utils.py:fft_pad", "pyotf/utils.py:_padding_slices", "pyotf/utils.py:_calc_pad", "pyotf/utils.py:_calc_crop"]}
{"id": "C02", "title": "fft_pad alignment and content", "statement": "fft_pad moves data rigidly: the element at index (n+1)//2 of every axis lands at (N+1)//2, every element of the overlap keeps its value, and for mode='constant' every other output element is the fill value. Consequently the fftshift origin n//2 lands on the new fftshift origin N//2 exactly when n and N have the same parity; when the parity changes it is displaced by one pixel.", "quantifier": "every rank, all old and new sizes, all array contents", "why_tests_cant": "off-by-one displacement only shows for parity-changing sizes and unsymmetric data; tests use even sizes", "anchors": ["pyotf/utils.py:fft_pad", "pyotf/utils.py:_calc_pad"]}
{"id": "C03", "title": "Padding then cropping back is the identity", "statement": "fft_pad(fft_pad(a, N), a.shape) returns a, element for element, for every N that is at least a.shape on every axis, whatever the pad mode put in the border.", "quantifier": "every rank, every content, every target size >= the old size, every fill", "why_tests_cant": "an asymmetric rounding rule could break only odd/even transitions; needs all sizes", "anchors": ["pyotf/utils.py:fft_pad", "pyotf/utils.py:_calc_pad", "pyotf/utils.py:_calc_crop"]}
{"id": "C04", "title": "fft_pad interprets newshape correctly and rejects nonsense", "statement": "newshape=None pads every axis to the smallest 5-smooth length >= the axis length; a plain or numpy integer is applied to every axis; an iterable is used per axis (extra trailing entries are ignored, too few entries are rejected with ValueError, none at all with TypeError, unless exactly one entry is given, in which case the pad widths of axis 0 are reused on every axis); None among the arguments and non-integer scalars never silently change the data.", "quantifier": "every array rank and every newshape argument (None, int, iterable of any length, other objects)", "why_tests_cant": "argument space is unbounded; the one-entry and too-long iterables are never exercised", "anchors": ["pyotf/utils.py:fft_pad"]}
{"id": "C05", "title": "slice_maker yields in-bounds, centred windows", "statement": "For real centres xs and non-negative widths ws, slice_maker returns one slice per centre with 0 <= start <= stop; if the window does not reach below index 0 its length is exactly rint(w) and it is [x - w//2, x + (w+1)//2) around the rounded centre; windows sticking out below 0 are cut at 0 and windows entirely below 0 are empty. A negative width raises ValueError.", "quantifier": "every real centre and width (round-half-even included), every number of axes", "why_tests_cant": "ties in rounding, odd widths and negative centres combine; doctests cover two integer calls", "anchors": ["pyotf/utils.py:slice_maker", "pyotf/utils.py:_calc_pad"]}
{"id": "C06", "title": "easy_fft / easy_ifft round trip", "statement": "easy_ifft(easy_fft(x, axes), axes) equals x whenever all transformed axes have even length. On an axis of odd length n the composition is not the identity: it returns x displaced by one sample and multiplied by the unit phase exp(-2*pi*i*(k + n//2)/n) along that axis.", "quantifier": "all shapes of every rank, all choices of transformed axes, all complex contents", "why_tests_cant": "tests use even sizes only; the defect is exactly on odd sizes", "anchors": ["pyotf/utils.py:easy_fft", "pyotf/utils.py:easy_ifft"]}
{"id": "C07", "title": "easy_fft is a centred Fourier transform", "statement": "easy_fft is linear; its value at the centre index n//2 of every transformed axis is the sum of the data; it preserves energy up to the number of points (Parseval); and for real data it is Hermitian: the value at the index mirrored through the centre (mod n) is the complex conjugate.", "quantifier": "all shapes of every rank, all contents", "why_tests_cant": "algebraic laws over all arrays; floating-point tests only sample a few", "anchors": ["pyotf/utils.py:easy_fft"]}
{"id": "C08", "title": "cart2pol is an exact change of coordinates", "statement": "For every (y, x), cart2pol returns rho >= 0 and theta in (-pi, pi] with x = rho cos(theta) and y = rho sin(theta); rho = 0 only at the origin.", "quantifier": "all real pairs (four quadrants, both axes, origin)", "why_tests_cant": "the unit test samples ten random points and almost surely misses the axes", "anchors": ["pyotf/utils.py:cart2pol"]}
{"id": "C09", "title": "Numeric properties accept exactly the right values", "statement": "Assigning a NumericProperty raises TypeError when the value has the wrong type, ValueError when it is negative, and otherwise makes the attribute compare equal to the assigned value; the change hook runs exactly when the stored value differs from the new one; a rejected assignment changes nothing. Zero is accepted although the message says 'larger than 0', bools count as ints, and NaN is accepted where floats are.", "quantifier": "every Python value of the modelled kinds, every previous value (including unset)", "why_tests_cant": "the combination of type tower, ordering and equality rules is larger than any test table", "anchors": ["pyotf/utils.py:NumericProperty"]}
{"id": "C10", "title": "center_data moves the maximum to the centre and loses nothing", "statement": "center_data returns an array of the same shape in which the first (C-order) maximum of the input sits at index n//2 on every axis, every other element is displaced by the same cyclic shift (so it is a permutation of the input), and the input array is not modified.", "quantifier": "every rank and shape with no zero-length axis, all contents including ties", "why_tests_cant": "the unit test uses one hot pixel in 2-D; ties, ranks and odd sizes need a proof", "anchors": ["pyotf/utils.py:center_data"]}
{"id": "C11", "title": "remove_bg subtracts the mode", "statement": "For non-negative integer data remove_bg returns data - multiplier*mode, with mode the smallest among the most frequent values, without unsigned wrap-around; negative data or empty data raise ValueError.", "quantifier": "every non-empty multiset of non-negative integers and every multiplier", "why_tests_cant": "mode ties and value ranges are unbounded", "anchors": ["pyotf/utils.py:remove_bg"]}
{"id": "C12", "title": "psqrt", "statement": "psqrt(x) is the square root of x for x >= 0 and 0 for x < 0; it is monotone and squares back to max(0,x).", "quantifier": "all reals", "why_tests_cant": "pointwise law over all inputs", "anchors": ["pyotf/utils.py:psqrt"]}
{"id": "C13", "title": "prep_data_for_PR shape, sign and centring", "statement": "prep_data_for_PR(data, xysize) returns shape (nz, xysize, xysize) with values max(0, data - multiplier*mode) on the data and 0 on the padding whenever xysize >= max(ny, nx) (xysize=None means max(ny,nx)). For 0 < xysize < max(ny,nx) it crops around the brightest voxel; the values are then NOT clipped at zero, the brightest voxel ends at index xysize//2 for even ny/nx but at xysize//2 - 1 for odd ones, and an axis of length n gets length xysize if xysize < n, n if xysize > n (so the result is not square when min < xysize < max), and n - 1 if xysize = n is odd. Negative xysize raises ValueError.", "quantifier": "all 3-D integer stacks, all xysize >= 1, all multipliers", "why_tests_cant": "the function is untested; its branches depend on parity and on the relation of three sizes", "anchors": ["pyotf/utils.py:prep_data_for_PR", "pyotf/utils.py:center_data", "pyotf/utils.py:slice_maker", "pyotf/utils.py:fft_pad"]}
{"id": "C14", "title": "bin_ndarray computes block sums / means and conserves the total", "statement": "With a target shape dividing the old one axis by axis, element i of the result is the sum (mean) of the block [i*k, (i+1)*k) per axis and the sum of all elements is conserved (operation='sum'); a target shape that does not divide the old shape on some axis raises ValueError; with bin_size the trailing remainder of each axis is discarded and the shape is old//bin_size (sums and means alike), and a bin size that is negative, or zero while no bin exceeds its axis, raises ValueError; an unknown operation or a rank mismatch raises ValueError.", "quantifier": "every rank, all shapes, all contents, all bin sizes", "why_tests_cant": "the implementation goes through one interleaved reshape and a loop of negative axes whose correctness depends on the rank; no test exists", "anchors": ["pyotf/utils.py:bin_ndarray"]}
{"id": "C15", "title": "radial_profile is a genuine binned mean and deviation", "statement": "Every pixel is counted in exactly one bin (the rounded distance over binsize), radial_mean*count summed over bins is the sum of the data, each mean lies between the min and max of its bin, the variance under the square root is never negative (no NaN from it), and constant data gives a constant mean with zero deviation; complex data is handled as real and imaginary parts.", "quantifier": "all shapes, all data, all centres, all binsize > 0", "why_tests_cant": "needs Cauchy-Schwarz for all data; tests compare one constant array", "anchors": ["pyotf/utils.py:radial_profile"]}
{"id": "C16", "title": "radial_profile has no missing bins at unit bin size", "statement": "With binsize=1 and the centre an integer pixel inside the array (in particular the default centre), every bin 0..max contains at least one pixel, so no NaN/0-division occurs.", "quantifier": "every rank >= 1 and shape, every in-bounds integer centre", "why_tests_cant": "a covering argument over all shapes; tests see a single size", "anchors": ["pyotf/utils.py:radial_profile", "pyotf/microscope.py:ApotomeMicroscope.model_psf"]}
{"id": "C17", "title": "Noll index <-> (n, m) is Noll's bijection", "statement": "For Noll j in 1..120, noll2degrees(j) is the pair (n,m) with n <= 14, |m| <= n, n = m mod 2 determined by Noll's ordering rules (rows by n, then by |m|, even j <-> m>0 cosine, odd j <-> m<0 sine), degrees2noll is its exact inverse, and every legal (n,m) with n <= 14 is hit exactly once. The floating point formula used to recover n is exact.", "quantifier": "all 120 indices and all legal degree pairs up to n = 14 (the complete domain)", "why_tests_cant": "tests sample random indices below 36 and the first ten by hand", "anchors": ["pyotf/zernike.py:noll_mapping", "pyotf/zernike.py:noll_inverse", "pyotf/zernike.py:noll2degrees", "pyotf/zernike.py:degrees2noll"]}
{"id": "C18", "title": "Index conversion rejects what it cannot represent", "statement": "noll2degrees raises ValueError for non-integers and values < 1 and IndexError above 120; degrees2noll raises ValueError for non-integers and for n-m odd and IndexError when the table is exceeded, but does not check |m| <= n or n >= 0: illegal pairs silently return some other mode's Noll index (e.g. (1,3) and (2,-2) give the same index). For vectors: equally long index vectors are taken pair by pair and a single number is used with every entry of the other vector; other lengths raise ValueError, one pair of bad parity refuses the whole call, then one pair beyond the table does (IndexError), and otherwise each pair gets its own answer in order.", "quantifier": "all integers j; all integer pairs (n, m); all pairs of integer vectors", "why_tests_cant": "infinite input space; wrap-around of negative table indices is invisible to spot checks", "anchors": ["pyotf/zernike.py:noll2degrees", "pyotf/zernike.py:degrees2noll"]}
{"id": "C19", "title": "Radial part equals the textbook Zernike radial polynomial up to the sign (-1)^m", "statement": "For n >= |m|, n-m even and 0 <= r <= 1 the radial part computed through the Jacobi polynomial equals (-1)^m times the standard factorial sum R_n^|m|(r); in particular its value at r = 1 is (-1)^n instead of the conventional 1, and it vanishes like r^|m| at 0.", "quantifier": "all n, m, all r in [0,1]", "why_tests_cant": "identity of polynomials of unbounded degree; the unit tests normalise by squares and cannot see a sign", "anchors": ["pyotf/zernike.py:_radial_zernike"]}
{"id": "C20", "title": "Zernike values vanish where they must", "statement": "zernike is exactly zero for r > 1 and for n - m odd, and equals radial(r)*cos(m theta) for m >= 0 and radial(r)*sin(|m| theta) for m < 0 times sqrt(n+1) (m = 0) or sqrt(2(n+1)) when norm=True and times 1 when norm=False.", "quantifier": "all n, m, r >= 0, theta", "why_tests_cant": "pointwise law for all inputs", "anchors": ["pyotf/zernike.py:_zernike", "pyotf/zernike.py:_radial_zernike"]}
{"id": "C21", "title": "Zernike modes are orthonormal on the unit disk", "statement": "With norm=True, (1/pi) * integral over the unit disk of Z_j * Z_k is 1 if j = k and 0 otherwise, for all legal (n,m) pairs.", "quantifier": "all pairs of legal degrees of unbounded order", "why_tests_cant": "the tests sample a 2048x2048 grid for fifteen modes with tolerance up to 10^(n-6)", "anchors": ["pyotf/zernike.py:_zernike", "pyotf/zernike.py:_radial_zernike"]}
{"id": "C22", "title": "Zernike rotation and parity", "statement": "Rotating the pupil by phi mixes only the +m and -m modes by the angle m*phi, and theta -> theta + pi multiplies a mode by (-1)^m.", "quantifier": "all modes, all points, all angles", "why_tests_cant": "covariance law over continuous inputs", "anchors": ["pyotf/zernike.py:_zernike"]}
{"id": "C23", "title": "zernike argument dispatch", "statement": "zernike(r,theta,j), zernike(r,theta,n,m) and zernike(r,theta,[ [n..],[m..] ]) agree when (n,m) are the degrees of j; one result per requested mode in order; ValueError is raised for n < |m|, negative r, r of more than two dimensions, wrong number of positional arguments or wrong shapes. theta may have any shape numpy stretches to that of r (missing leading axes, axes of length 1); otherwise ValueError, unless every requested mode has n - m odd.", "quantifier": "all argument lists", "why_tests_cant": "dispatch depends on the number, rank and shape of the arguments", "anchors": ["pyotf/zernike.py:zernike"]}
{"id": "C24", "title": "A PSF object never serves stale arrays", "statement": "After any history of parameter assignments (accepted or rejected), reads and apply_pupil calls, each of PSFa, OTFa, PSFi and OTFi read from a HanserPSF or SheppardPSF equals what a model in the same current parameter state (and, for Hanser, the pupil applied since the last change if any) computes from scratch.", "quantifier": "every finite sequence of public operations on HanserPSF/SheppardPSF, every parameter value", "why_tests_cant": "cache invalidation bugs appear only in particular interleavings of sets and reads", "anchors": ["pyotf/otf.py:BasePSF._attribute_changed", "pyotf/otf.py:BasePSF.PSFi", "pyotf/otf.py:HanserPSF.PSFa", "pyotf/otf.py:SheppardPSF.OTFa", "pyotf/utils.py:NumericProperty"]}
{"id": "C25", "title": "Rejected assignments are atomic", "statement": "If assigning any PSF attribute raises, then every attribute of the object and every array subsequently read from it is exactly as if the assignment had not been attempted.", "quantifier": "every reachable object state, every attribute, every rejected value", "why_tests_cant": "needs all states and all values", "anchors": ["pyotf/otf.py:BasePSF", "pyotf/otf.py:HanserPSF", "pyotf/otf.py:SheppardPSF"]}
{"id": "C26", "title": "Validated parameter invariants", "statement": "In every reachable state of a PSF object wl, na, ni are non-negative numbers or NaN, size and zsize are non-negative integers, zres is positive, vec_corr and condition belong to their documented sets (so the 'You should never see this' branches are unreachable). The sampling limit res < wl/(2 na) (and Sheppard's zres < wl/(2 ni)) is enforced only when res (zres) itself is assigned: later assignments to wl, na, ni can violate it silently, and negative or NaN res is accepted.", "quantifier": "every history of operations", "why_tests_cant": "invariants over histories; the violation needs a specific two-step history", "anchors": ["pyotf/otf.py:BasePSF.res", "pyotf/otf.py:BasePSF.zres", "pyotf/otf.py:SheppardPSF.zres", "pyotf/otf.py:BasePSF.vec_corr", "pyotf/otf.py:BasePSF.condition"]}
{"id": "C27", "title": "zrange life cycle", "statement": "HanserPSF.zrange is the last value assigned to it, unless zsize or zres was assigned successfully (even to the same value) afterwards, in which case it is the generated range; the generated range has zsize points spaced zres with the focal plane z = 0 at index (zsize+1)//2. Hence for odd zsize the range is not symmetric (it runs from -(zsize+1)/2 to (zsize-3)/2 steps) and for zsize = 1 the only plane is out of focus.", "quantifier": "every history, every zsize and zres", "why_tests_cant": "history property plus an off-by-one only for odd sizes", "anchors": ["pyotf/otf.py:HanserPSF._gen_zrange", "pyotf/otf.py:HanserPSF.zrange", "pyotf/otf.py:HanserPSF.zsize", "pyotf/otf.py:HanserPSF.zres"]}
{"id": "C28", "title": "Life time of an applied pupil", "statement": "After apply_pupil(p) all four arrays are those of pupil p until the next parameter change; assigning a numeric property its current value keeps the pupil, any effective change (and any assignment of res, zres, zrange, vec_corr, condition, zsize) discards it and restores the ideal pupil.", "quantifier": "every history containing apply_pupil", "why_tests_cant": "depends on which setters compare before invalidating", "anchors": ["pyotf/otf.py:HanserPSF.apply_pupil", "pyotf/otf.py:HanserPSF._gen_psf", "pyotf/utils.py:NumericProperty"]}
{"id": "C29", "title": "Aberration helpers and result objects do not touch the model they are given", "statement": "apply_aberration, apply_named_aberration(s), PhaseRetrievalResult.generate_psf and generate_zd_psf leave every observable of the model they were given unchanged, including its cached arrays and applied pupil; the returned model is independent. The one exception: both models hold the same z-range array object, so a write into that array by the caller is seen by both, and a 0-d zrange array is reshaped in place.", "quantifier": "every model state, every coefficient set, every later operation on the copy", "why_tests_cant": "aliasing of a shallow copy with shared caches", "anchors": ["pyotf/otf.py:apply_aberration", "pyotf/phaseretrieval.py:PhaseRetrievalResult._generate_psf"]}
{"id": "C30", "title": "PSFi is a non-negative real array of the right shape", "statement": "PSFi has shape (number of z planes, size, size) and all values >= 0, for both models and all vec_corr/condition settings; it is the sum of squared magnitudes of the components of PSFa, whose number is 1, 2 or 6 according to vec_corr.", "quantifier": "all parameters in the valid domain, all applied pupils", "why_tests_cant": "the tests check one parameter set", "anchors": ["pyotf/otf.py:BasePSF.PSFi", "pyotf/otf.py:HanserPSF._gen_psf", "pyotf/otf.py:SheppardPSF._gen_otf"]}
{"id": "C31", "title": "Light energy is the same in every z plane", "statement": "For HanserPSF the sum of PSFi over a z plane is the same for every plane and equals (1/size^2) times the summed squared magnitude of the (conditioned, polarised) pupil, for any applied pupil.", "quantifier": "all zranges, all pupils, all sizes, all parameters with wl > 0", "why_tests_cant": "Parseval for all inputs", "anchors": ["pyotf/otf.py:HanserPSF._gen_psf", "pyotf/otf.py:HanserPSF._calc_defocus"]}
{"id": "C32", "title": "Vectorial components add up", "statement": "For HanserPSF, PSFi with vec_corr='total' equals the sum of the PSFi for 'x', 'y' and 'z', and its energy in every plane is exactly twice the energy of vec_corr='none' for the same pupil and condition.", "quantifier": "all parameters and pupils", "why_tests_cant": "trigonometric identity on every pupil pixel", "anchors": ["pyotf/otf.py:HanserPSF._gen_psf"]}
{"id": "C33", "title": "The in-focus centre is the global maximum and aberrations cannot exceed it", "statement": "For a scalar HanserPSF the value at plane z = 0 and pixel (size//2, size//2) is >= PSFi everywhere, and it is >= PSFi everywhere for every phase-only aberrated version of the model (Strehl ratio <= 1).", "quantifier": "all sizes, parameters, planes, pixels, all aberration coefficients", "why_tests_cant": "triangle inequality over all pupils", "anchors": ["pyotf/otf.py:HanserPSF._gen_psf", "pyotf/otf.py:apply_aberration"]}
{"id": "C34", "title": "Axial mirror symmetry", "statement": "For the ideal HanserPSF pupil PSFi at z and -z are equal pixel by pixel, and PSFi is invariant under reflecting x, reflecting y and exchanging x and y about pixel size//2 (mod size) for vec_corr='none'.", "quantifier": "all sizes (even and odd), all z, all parameters", "why_tests_cant": "symmetry for every grid size including the unpaired Nyquist frequency", "anchors": ["pyotf/otf.py:HanserPSF._gen_kr", "pyotf/otf.py:HanserPSF._gen_pupil", "pyotf/otf.py:HanserPSF._gen_psf"]}
{"id": "C35", "title": "OTFi is Hermitian with its maximum at DC", "statement": "OTFi = easy_fft(PSFi): at index (nz//2, size//2, size//2) it is the total of PSFi, no other element exceeds it in magnitude, and mirrored elements are complex conjugates.", "quantifier": "all models, all parameters", "why_tests_cant": "algebraic law for all PSFs", "anchors": ["pyotf/otf.py:BasePSF.OTFi", "pyotf/utils.py:easy_fft"]}
{"id": "C36", "title": "Band limit of the intensity OTF", "statement": "For HanserPSF (any applied pupil, any vec_corr and condition) OTFi vanishes at every lateral frequency that is not a difference (mod the grid) of two pixels where the pupil is non-zero; if the pupil is supported in the aperture (as the ideal one is) OTFi vanishes at every |k| >= 2 na/wl, whatever the pixel size (wrapping around the grid only shrinks a frequency).", "quantifier": "all pupils, parameters, sizes, z ranges", "why_tests_cant": "support statement over all pupils; aliasing threshold is exact", "anchors": ["pyotf/otf.py:HanserPSF._gen_pupil", "pyotf/otf.py:BasePSF.res", "pyotf/otf.py:BasePSF.OTFi"]}
{"id": "C37", "title": "Hanser and Sheppard polarisation factors agree", "statement": "On the pupil sphere the six vectorial factors of SheppardPSF (in direction cosines) equal those of HanserPSF (in angles) up to the sign of the z component, and each model's six squared factors add up to 2.", "quantifier": "all directions with cos(theta) > -1", "why_tests_cant": "trigonometric identity over the sphere", "anchors": ["pyotf/otf.py:HanserPSF._gen_psf", "pyotf/otf.py:SheppardPSF._gen_otf"]}
{"id": "C38", "title": "SheppardPSF condition and dual semantics", "statement": "SheppardPSF with vec_corr='none' ignores condition altogether; with dual=True, vec_corr != 'none' and the (default) sine condition every model having at least one in-band point contains NaN, because direction cosines of the lower shell are negative; with dual=False all amplitudes are finite.", "quantifier": "all parameter settings", "why_tests_cant": "depends on grid contents for all sizes; tests never set dual", "anchors": ["pyotf/otf.py:SheppardPSF._gen_otf", "pyotf/otf.py:SheppardPSF._gen_kr"]}
{"id": "C39", "title": "SheppardPSF shell support and rejection of impossible apertures", "statement": "OTFa is zero off the spherical shell of radius ni/wl (thickness one frequency pixel) and below the aperture cone, and the model refuses (AssertionError) to compute when na > ni; HanserPSF accepts na > ni.", "quantifier": "all parameters, all grid points", "why_tests_cant": "all grid points for all parameters", "anchors": ["pyotf/otf.py:SheppardPSF._gen_kr", "pyotf/otf.py:HanserPSF._gen_pupil"]}
{"id": "C40", "title": "named_aberration_to_pcoefs", "statement": "For each of the 15 names the result has length 15 with the magnitude at the position of that name's Noll index and 0 elsewhere; any other name raises KeyError; names and Noll indices are in bijection and match the classical (n,m).", "quantifier": "all strings, all magnitudes", "why_tests_cant": "one test on one name", "anchors": ["pyotf/otf.py:named_aberration_to_pcoefs", "pyotf/zernike.py:noll2name", "pyotf/zernike.py:name2noll"]}
{"id": "C41", "title": "Named aberrations combine additively and independently of order", "statement": "apply_named_aberrations depends only on the total coefficient per name (not on dict order), equals apply_aberration with the summed coefficients, gives the ideal (unaberrated) PSF for an empty dict or zero magnitudes - whatever pupil was in force before -, and raises KeyError if any name is unknown (before the model is looked at).", "quantifier": "all dicts, all models", "why_tests_cant": "all orders and combinations", "anchors": ["pyotf/otf.py:apply_named_aberrations", "pyotf/otf.py:apply_aberration"]}
{"id": "C42", "title": "Aberrations do not accumulate across calls", "statement": "apply_aberration returns a new model with the given model's parameters whose four arrays are exactly those of the aberrated pupil; applying an aberration to an already aberrated model gives the same arrays as applying it to the original (the first aberration is discarded); with no coefficients the copy keeps what was in force.", "quantifier": "all programs and models, all coefficient vectors", "why_tests_cant": "contradicts a natural expectation; only a proof shows it for all coefficients", "anchors": ["pyotf/otf.py:apply_aberration"]}
{"id": "C43", "title": "Piston does nothing; tip and tilt translate", "statement": "A piston phase leaves PSFi unchanged for every model; multiplying any pupil by a linear phase of s cycles per frequency period translates PSFi cyclically by s pixels.", "quantifier": "all models, magnitudes, all integer shifts", "why_tests_cant": "continuous family", "anchors": ["pyotf/otf.py:apply_aberration", "pyotf/otf.py:HanserPSF._gen_psf", "pyotf/zernike.py:zernike"]}
{"id": "C44", "title": "apply_aberration argument handling", "statement": "With mcoefs and pcoefs both None an unaberrated copy is returned; a missing one is treated as zeros; different lengths raise AssertionError; more than 120 coefficients raise IndexError; a plain sequence (not an array) raises TypeError; no coefficients at all raise ValueError; a non-Hanser model raises AssertionError; everything else succeeds.", "quantifier": "all argument combinations", "why_tests_cant": "unbounded lengths", "anchors": ["pyotf/otf.py:apply_aberration"]}
{"id": "C45", "title": "retrieve_phase bookkeeping", "statement": "retrieve_phase performs between 1 and max_iters iterations; mse, mse_diff and pupil_diff have that common length; mse[i] is the mean squared intensity error of the i-th pupil; the loop stops at the first iteration where a tolerance is met and otherwise runs exactly max_iters; max_iters <= 0 or non-square data raise AssertionError.", "quantifier": "all data, parameters, tolerances, max_iters", "why_tests_cant": "loop invariant for all iteration counts, with NaN comparisons at the first step", "anchors": ["pyotf/phaseretrieval.py:retrieve_phase"]}
{"id": "C46", "title": "Phase retrieval never increases the amplitude error", "statement": "From each iteration to the next the summed squared difference between |PSFa| and sqrt(max(0,data)) does not increase, with phase_only False, and (with the corresponding constraint) with phase_only True.", "quantifier": "all data, all sizes, all z ranges, every iteration, both phase_only settings", "why_tests_cant": "convergence monotonicity for every input cannot be sampled", "anchors": ["pyotf/phaseretrieval.py:retrieve_phase"]}
{"id": "C47", "title": "Retrieved pupil lives in the aperture", "statement": "The returned mag and phase are zero outside the ideal pupil at every iteration count; mag >= 0; with phase_only=True mag is exactly 1 inside and 0 outside the pupil.", "quantifier": "all data and options", "why_tests_cant": "invariant over iterations", "anchors": ["pyotf/phaseretrieval.py:retrieve_phase"]}
{"id": "C48", "title": "Result pupil versus returned model", "statement": "If the loop stops on a tolerance, result.complex_pupil is the (shifted) pupil whose PSF the returned model holds and whose error is mse[-1], so result.generate_psf() reproduces result.model.PSFi; if it stops on max_iters the returned pupil is one iteration ahead of result.model and of mse[-1].", "quantifier": "all runs (assuming only that phase unwrapping changes phases by multiples of 2 pi)", "why_tests_cant": "needs every run of the loop", "anchors": ["pyotf/phaseretrieval.py:retrieve_phase", "pyotf/phaseretrieval.py:PhaseRetrievalResult.generate_psf", "pyotf/phaseretrieval.py:PhaseRetrievalResult.complex_pupil"]}
{"id": "C49", "title": "retrieve_phase overrides the caller's params", "statement": "vec_corr, condition, zsize and size are forced to 'none', 'none', data.shape[0], data.shape[-1] whatever the caller passed, all other entries are used as passed, and the caller's dict object itself is modified accordingly.", "quantifier": "all dicts, all data shapes", "why_tests_cant": "aliasing effect on the caller's object for all dicts", "anchors": ["pyotf/phaseretrieval.py:retrieve_phase"]}
{"id": "C50", "title": "Perfect data converges immediately", "statement": "If data equals the PSF of the ideal pupil and mse_tol > 0, retrieve_phase stops in the first iteration with mse = [0], and returns the ideal pupil (zero phase, unit magnitude).", "quantifier": "all parameters and sizes", "why_tests_cant": "holds for all parameter sets", "anchors": ["pyotf/phaseretrieval.py:retrieve_phase"]}
{"id": "C51", "title": "Zernike fit is a least squares fit and recovers exact expansions", "statement": "fit_to_zernikes returns, independently for magnitude and phase, coefficients minimising the squared misfit over pixels with r <= 1; if the modes are linearly independent there and the data is exactly sum c_i Z_i, the coefficients are c, and phase(slice(None)) reconstructs the data. num_zerns = 1 raises IndexError, num_zerns > 120 raises IndexError.", "quantifier": "all data, all num_zerns, any solver meeting the least squares specification", "why_tests_cant": "holds for all data", "anchors": ["pyotf/phaseretrieval.py:PhaseRetrievalResult.fit_to_zernikes", "pyotf/phaseretrieval.py:_fit_to_zerns", "pyotf/phaseretrieval.py:_recon_from_zerns"]}
{"id": "C52", "title": "Partial reconstructions add up", "statement": "ZernikeDecomposition.phase/mag are linear in the coefficients, the reconstructions from complementary slices [:k] and [k:] add up to the full one for every integer k, and generate_zd_psf by default ignores piston, tip, tilt and defocus phase (first four coefficients).", "quantifier": "all coefficient vectors and all slices including negative bounds", "why_tests_cant": "python slice semantics for all k", "anchors": ["pyotf/phaseretrieval.py:ZernikeDecomposition._recon", "pyotf/phaseretrieval.py:PhaseRetrievalResult.generate_zd_psf"]}
{"id": "C53", "title": "Resizing a generated PSF", "statement": "generate_psf(size=s) returns (nz, s, s); cropping keeps the pixel at nx//2 at s//2; padding keeps it at s//2 only when s and nx have equal parity and otherwise displaces it by one pixel; zsize/zrange options change only the planes.", "quantifier": "all sizes", "why_tests_cant": "parity dependent off-by-one", "anchors": ["pyotf/phaseretrieval.py:PhaseRetrievalResult._generate_psf", "pyotf/utils.py:fft_pad"]}
{"id": "C54", "title": "Microscope construction geometry", "statement": "A microscope with odd oversample_factor f >= 1 builds a model with size*f lateral pixels of pixel_size/f, zsize = size and zres = pixel_size unless overridden; even f raises AssertionError, negative f ValueError, non-integers TypeError; model names are matched case-insensitively and unknown names raise ValueError.", "quantifier": "all constructor arguments", "why_tests_cant": "argument space", "anchors": ["pyotf/microscope.py:WidefieldMicroscope.__init__", "pyotf/microscope.py:_choose_model"]}
{"id": "C55", "title": "Oversampled PSF is binned around the right pixel, keeps its energy and is normalised", "statement": "PSF has shape (zsize, size, size) and sums to 1; each pixel is the normalised sum of an f x f block whose grid is placed so that fine-grid pixel (size*f)//2 is the centre of the block of coarse pixel size//2, for even and odd sizes; no light is lost in binning.", "quantifier": "all sizes, odd factors, PSF contents with non-zero sum", "why_tests_cant": "parity and shift interplay for all sizes", "anchors": ["pyotf/microscope.py:WidefieldMicroscope.PSF", "pyotf/utils.py:bin_ndarray"]}
{"id": "C56", "title": "Microscope OTF normalisation", "statement": "OTF at the centre index is 1 and |OTF| <= 1 everywhere when PSF is non-negative.", "quantifier": "all microscopes and parameters", "why_tests_cant": "law for all PSFs", "anchors": ["pyotf/microscope.py:WidefieldMicroscope.OTF"]}
{"id": "C57", "title": "Microscope caches follow only their numeric properties", "statement": "PSF/OTF read from a microscope are recomputed after any effective change of oversample_factor, pinhole_size, na_exc, wl_exc, coherent, dc, dc_suppress, but remain stale after changes to model, model_exc parameters, pixel_size, wiener or orientations; ConfocalMicroscope.wl_exc is unset after construction (AttributeError) and assigning it never changes the excitation model; changing oversample_factor after construction does not resize the model.", "quantifier": "all histories of reads and assignments", "why_tests_cant": "history property", "anchors": ["pyotf/microscope.py:WidefieldMicroscope._attribute_changed", "pyotf/microscope.py:ConfocalMicroscope", "pyotf/microscope.py:BaseSIMMicroscope"]}
{"id": "C58", "title": "Pinhole kernel", "statement": "_disk_kernel(radius) for radius > 0 has odd side, is non-negative, sums to 1, is symmetric under reflections and transposition, and is large enough to contain every integer offset closer than radius.", "quantifier": "all radii > 0", "why_tests_cant": "rounding of 2*radius for all reals", "anchors": ["pyotf/microscope.py:_disk_kernel"]}
{"id": "C59", "title": "Confocal PSF", "statement": "The confocal PSF is the product of the excitation PSF with the pinhole-convolved (radius > 1.5 px) or plain detection PSF, hence non-negative; a pinhole of size 0 gives exactly the product of the two PSFs.", "quantifier": "all parameters", "why_tests_cant": "law for all PSFs", "anchors": ["pyotf/microscope.py:ConfocalMicroscope.model_psf"]}
{"id": "C60", "title": "SIM pattern formulas", "statement": "For incoherent 2D SIM with N orientations model_psf = psf * (2N + 2 sum cos(2 k r_i)), which dc_suppress turns into psf * (1 + 2 sum cos(2 k r_i)); 3D SIM adds one DC beam per orientation; with coherent=True one field is accumulated over all orientations and dc_suppress is ignored. SIM2DMicroscope, SIM3DMicroscope and LatticeSIMMicroscope compute the first, the second and the third of these, the last with the orientations 0 and pi/2: psf * (1 + 2 A cos(kz z) + A^2), A = 2 cos(k x) + 2 cos(k y).", "quantifier": "all orientations, grids, wavelengths", "why_tests_cant": "in-place accumulation and aliasing of base_pattern matter for all orientation lists", "anchors": ["pyotf/microscope.py:BaseSIMMicroscope.model_psf", "pyotf/microscope.py:SIM2DMicroscope", "pyotf/microscope.py:SIM3DMicroscope", "pyotf/microscope.py:LatticeSIMMicroscope"]}
{"id": "C61", "title": "SIM constructor validation", "statement": "wiener=None (documented as 'no deconvolution') raises TypeError, negative wiener raises ValueError, integer na_exc/wl_exc (including an integer wl inherited through wl_exc=None) raise TypeError.", "quantifier": "all argument kinds", "why_tests_cant": "type tower cases", "anchors": ["pyotf/microscope.py:BaseSIMMicroscope.__init__", "pyotf/utils.py:NumericProperty"]}
{"id": "C62", "title": "Wiener filter range", "statement": "With wiener = q > 0 the SIM microscope's response is easy_ifft of v/(v + M q^2), v being the power of the widefield model at each frequency and M the largest power; with q = 0 of the indicator v > 1e-16. The factor lies in [0,1], at most 1/(1+q^2) for q > 0, is zero exactly where v is, grows with v and shrinks with q. A black model with q > 0 gives NaN; wiener = None switches the filter off; negative numbers and NaN raise ValueError. On even grids the transfer function of the result is exactly the factor; on odd axes easy_ifft reads the next frequency.", "quantifier": "all OTFs and wiener values", "why_tests_cant": "law for all inputs", "anchors": ["pyotf/microscope.py:BaseSIMMicroscope.model_psf"]}
{"id": "C63", "title": "Representations rebuild the object", "statement": "repr of a HanserPSF or SheppardPSF lists every constructor argument with its current value, so evaluating the text gives an object with the same parameters exactly when the current values are finite and still within the constructor's limits, and the same PSF arrays if no retrieved pupil is in force. repr of a microscope lists the arguments it was constructed with, not later changes made through .model: evaluating it rebuilds the microscope as constructed when oversample_factor is 1; with a factor f the printed size is already oversampled, so the evaluated microscope has a model of n*f*f instead of n*f pixels; SIM2D/SIM3D/LatticeLightSheet texts raise TypeError when evaluated; a text-valued, NaN or infinite keyword makes the text unevaluable (strings are printed without quotes).", "quantifier": "all HanserPSF/SheppardPSF object states reachable by any assignments and reads; all microscope classes, constructor arguments and later histories", "why_tests_cant": "all classes, all argument values and all histories of assignments between construction and repr", "anchors": ["pyotf/otf.py:BasePSF.__repr__", "pyotf/otf.py:HanserPSF.__repr__", "pyotf/otf.py:SheppardPSF.__repr__", "pyotf/microscope.py:WidefieldMicroscope.__repr__", "pyotf/microscope.py:ConfocalMicroscope.__repr__", "pyotf/microscope.py:SIM.__repr__"]}
{"id": "C64", "title": "Display extents", "statement": "max_min(n, d) returns the coordinates (i - n//2)*d of the first and last pixel, so it spans exactly n-1 pixels and is symmetric exactly for odd n; fft_max_min(n, d) is the first and last element of fftshift(fftfreq(n, d)) and lies within the Nyquist band [-1/(2d), 1/(2d)]; a zero pixel size or zero length raises ZeroDivisionError.", "quantifier": "all n >= 1 and all d", "why_tests_cant": "parity law over all sizes", "anchors": ["pyotf/display.py:max_min", "pyotf/display.py:fft_max_min"]}
{"id": "C65", "title": "z_squeeze algebra", "statement": "z_squeeze(n1, n2, na) is the ratio of the axial shifts n - sqrt(n^2 - na^2) of the two media: it is 1 for equal indices, inverse under exchange, multiplicative through an intermediate medium, positive, bounded by the index ratio and monotone; at na = 0 it is NaN.", "quantifier": "all indices and apertures with 0 < na <= both indices", "why_tests_cant": "algebraic law over a continuum", "anchors": ["pyotf/display.py:z_squeeze"]}
{"id": "C66", "title": "labview wrapper always feeds square data", "statement": "labview() accepts any 3-D non-negative integer stack of any (ny, nx) with parameters HanserPSF accepts: the squareness assertion cannot fail; the result is a list of s = max(ny, nx) rows of s numbers, equal to the phase retrieve_phase returns for the stack with 1.5 times its mode removed, clipped at zero and zero-padded about the centre to s x s, and zero outside the aperture. Non-3-D, empty or negative data, no iterations, and parameters HanserPSF refuses raise.", "quantifier": "all stacks, parameters, iteration counts and tolerances", "why_tests_cant": "composition of all shape branches with the retrieval loop", "anchors": ["pyotf/labview.py:labview"]}
{"id": "C67", "title": "Version strings", "statement": "From git's 'TAG-N-gHEX[-dirty]' the tag (even with hyphens, '-gab' or '-dirty' inside), N, HEX and the dirty flag are recovered exactly; pep440 renders TAG at a clean tag and TAG+N.gHEX[.dirty] otherwise ('.' for '+' when the tag has one), has one '+' more only if the tag had none, and determines N, dirtiness and HEX; git-describe-long gives back git's own text; the other styles, untagged checkouts, unparseable output and foreign prefixes behave as documented. Archive keywords choose the least tag with the prefix; get_versions asks git in the directory two levels up and falls back to '0+unknown'.", "quantifier": "all tags, distances, hashes, styles, paths, reference lists", "why_tests_cant": "string parsing over unbounded inputs", "anchors": ["pyotf/_version.py:git_pieces_from_vcs", "pyotf/_version.py:render", "pyotf/_version.py:git_versions_from_keywords", "pyotf/_version.py:versions_from_parentdir", "pyotf/_version.py:get_versions"]}
{"id": "C68", "title": "HanserPSF evaluates the angular spectrum integral on the documented grids", "statement": "With vec_corr='none' PSFa[0,z,y,x] is (1/size^2) times the sum over pupil pixels of pupil*sqrt(condition weight)*exp(2 pi i (kz*zrange[z] + ky*(y-size//2)*res + kx*(x-size//2)*res)), where (ky,kx) are the signed frequencies of the pixel and kz = sqrt(max(0,(ni/wl)^2-|k|^2)); i.e. pixel size//2 is the optical axis and z=0 is focus, for even and odd sizes.", "quantifier": "all physical parameter sets, all pupils on the grid, all pixels and planes", "why_tests_cant": "tests compare a few sizes to stored data; the statement is about every size, parity, z range and pupil", "anchors": ["pyotf/otf.py: HanserPSF._gen_kr, _gen_pupil, _calc_defocus, _gen_psf"]}
{"id": "C69", "title": "Focus pixel of SheppardPSF", "statement": "The intensity of a scalar (vec_corr='none') SheppardPSF has its maximum at index n - n//2 of every axis: this is n//2 for even lengths but n//2 + 1 for odd ones, where the pixel size//2 (HanserPSF's focus pixel) is strictly darker as soon as the band contains two directions differing in ky+kx. The two models of odd lateral size are therefore displaced by one pixel against each other.", "quantifier": "all physical parameters, all sizes and numbers of planes, all voxels", "why_tests_cant": "Ranges over every grid size and every pass band; the shipped comparison uses even sizes only, where the defect is invisible.", "anchors": ["pyotf/otf.py:SheppardPSF.PSFa", "pyotf/utils.py:easy_ifft"]}
{"id": "C70", "title": "The aberrated pupil is the textbook one", "statement": "apply_aberration(model, m, p) applies (clear aperture + sum m_j Z_j) * exp(i sum p_j Z_j), Z_j the normalised Noll modes in pupil coordinates with radius 1 on the rim, zero outside; on a 1-pixel grid with several coefficients the shape is wrong.", "quantifier": "all models, all coefficient vectors of up to 120 entries, all pixels", "why_tests_cant": "continuous family of pupils", "anchors": ["pyotf/otf.py:apply_aberration", "pyotf/zernike.py:zernike"]}
{"id": "C71", "title": "Reversing the phase coefficients reflects the PSF through its centre", "statement": "Negating all phase coefficients turns the PSF at height z into the point reflection (in all three coordinates) of the original at -z.", "quantifier": "all models, coefficients and voxels", "why_tests_cant": "continuous family", "anchors": ["pyotf/otf.py:apply_aberration", "pyotf/otf.py:HanserPSF._gen_psf"]}
{"id": "C72", "title": "Phase-only aberrations keep energy and never beat the ideal focus", "statement": "A phase-only aberration leaves the total intensity of every plane equal to the ideal PSF's; for scalar models no voxel exceeds the ideal in-focus centre value (Strehl ratio at most 1).", "quantifier": "all models, coefficients, planes", "why_tests_cant": "an inequality over all coefficient vectors", "anchors": ["pyotf/otf.py:apply_aberration", "pyotf/otf.py:HanserPSF._gen_psf"]}
{"id": "C73", "title": "Objects show the numbers of their current attributes", "statement": "After any history of assignments, reads and applied pupils, the four arrays read from a HanserPSF (SheppardPSF) are those the physical model computes from the current attributes and the pupil in force.", "quantifier": "all construction arguments, all histories", "why_tests_cant": "unbounded histories", "anchors": ["pyotf/otf.py:BasePSF", "pyotf/otf.py:HanserPSF", "pyotf/otf.py:SheppardPSF"]}
{"id": "C74", "title": "Constructor arguments read back; zres and zsize default to res and size", "statement": "After HanserPSF(...) or SheppardPSF(...) returns, wl, na, ni, res, size, vec_corr, condition (and dual) read back the values passed; zres reads back res if it was omitted and zsize reads back size if it was omitted; a HanserPSF's zrange is the one passed (a scalar becomes a one-element range) or else the one generated from zsize and zres.", "quantifier": "all constructor arguments of both classes for which construction succeeds", "why_tests_cant": "the order of the property setters (some of which regenerate the z range or clear caches) must be right for every combination of arguments", "anchors": ["pyotf/otf.py:BasePSF.__init__", "pyotf/otf.py:HanserPSF.__init__", "pyotf/otf.py:SheppardPSF.__init__"]}
{"id": "C75", "title": "One phase-retrieval iteration", "statement": "Each iteration of retrieve_phase replaces, at every plane, the amplitude of the current coherent PSF by sqrt(max(0,data)) keeping its phase, transforms back, removes the plane's defocus phase, averages over the planes, and cuts to the aperture; with phase_only=True only the phase of that average is kept.", "quantifier": "all data, parameters, iteration numbers and pupil pixels", "why_tests_cant": "quantifies over every data cube, every parameter set and every iteration count", "anchors": ["pyotf/phaseretrieval.py: retrieve_phase"]}
{"id": "C76", "title": "The Apotome image is the model's image times one axial factor per plane, between 0 and 1", "statement": "ApotomeMicroscope.model_psf of a microscope whose model gives the finite non-negative image d (nz x n x n): let k be half of the cut-off 2 na / wl in spectrum pixels (rounded half-to-even before halving, floor division). If the n x n spectrum has no ring k (counting from the last ring when k is negative), reading raises IndexError. Otherwise plane z of the result is plane z of d times |mean of the plane's centred spectrum over the ring of pixels at rounded distance k from zero frequency| divided by the light of the brightest plane; that factor is between 0 and 1. A black image gives NaN. For a Hanser model with physical parameters the ring always exists, no plane is black, and PSF is the binned product normalised to 1.", "quantifier": "all apotome microscopes, all model images, all sizes, wavelengths, apertures and pixel sizes", "why_tests_cant": "the factor depends on every pixel of every plane and ranges over all real-valued images and optical settings", "anchors": ["pyotf/microscope.py: ApotomeMicroscope.model_psf", "pyotf/utils.py: radial_profile, easy_fft"]}
{"id": "C77", "title": "Arrays from attributes, written out", "statement": "After any history, a HanserPSF's PSFa is, component by component, the sum over pupil pixels of plane waves with the pupil in force, the square root of the imaging condition's weight and the entry of the lens rotation matrix Rz(phi) Ry(-theta) Rz(-phi) that the vec_corr setting selects (order zx, zy, yx, yy, xx, xy), with wl, na, ni, res, size, zrange taken from the attributes of these names; PSFi is the sum over components of the squared modulus; OTFa and OTFi are the centred Fourier sums over the last three axes. A SheppardPSF's OTFa is 0 off the drawn shell and on it 1 (scalar) or the entry of Rz(phi) Ry(theta) Rz(-phi) times the condition's amplitude; PSFa is its inverse transform, PSFi the summed squares, and OTFi the centred Fourier sum of PSFi (all non-finite if one value of PSFi is).", "quantifier": "all constructor arguments accepted, all histories of assignments, reads and applied pupils, all finite attribute values with positive wl, ni, res (and na <= ni, at least two samples per axis for SheppardPSF), all settings, all voxels", "why_tests_cant": "a test compares a handful of parameter sets; a mix-up of attributes or components that agrees on those goes unseen", "anchors": ["pyotf/otf.py: BasePSF, HanserPSF._gen_psf, SheppardPSF._gen_otf"]}
{"id": "C78", "title": "What psf_plot and otf_plot show", "statement": "psf_plot shows the three maximum projections (mip) or central sections of the stack with extents equal to the coordinates of the first and last pixel of each axis; the panel titled YZ holds the x-z image and the panel titled XZ the z-y image, so the titles are right only for stacks symmetric under exchange of x and y; each XY column is drawn within half a pixel of its coordinate and each row within half a pixel of the mirrored row's coordinate; stacks that are not 3-D or are empty are refused. otf_plot shows the three central sections with the frequency axes of the transform, refuses non-square stacks, and draws the zero frequency at the origin of the overlays exactly for odd sizes.", "quantifier": "all stacks, sizes, pixel sizes and both projection modes", "why_tests_cant": "all stacks and sizes; plots are not asserted on in tests", "anchors": ["pyotf/display.py:psf_plot", "pyotf/display.py:otf_plot"]}
{"id": "C79", "title": "The overlays of otf_plot bound the OTF support", "statement": "The circle has radius 2*na/wl, the lateral cut-off of the widefield OTF, and the four arcs drawn on the axial panels are exactly the boundary of the set of frequency differences of two points of the cap of the Ewald sphere collected by the objective: a point is in the support iff it is within the arcs, and every point of the arcs belongs to it.", "quantifier": "all wl > 0 and 0 < na <= ni, all points of the plane", "why_tests_cant": "a statement about all points of a continuum", "anchors": ["pyotf/display.py:otf_plot"]}
{"id": "C80", "title": "Microscope plot_psf and plot_otf", "statement": "plot_psf crops the PSF to a window centred on its first maximum, whose rounded widths are 32 Abbe limits laterally and 16 axial resolutions axially, clipped at the array edge, and plots it with pixel_size on every axis. plot_otf shows the modulus of the OTF clipped from below at 2^-52: all values lie in [2^-52, 1], the centre is 1; the axial axis is scaled with pixel_size whatever zres is; a single NaN in the OTF makes all three panels flat at 2^-52.", "quantifier": "all built microscopes and parameters", "why_tests_cant": "all optical parameters and PSFs", "anchors": ["pyotf/microscope.py:BaseMicroscope.plot_psf", "pyotf/microscope.py:BaseMicroscope.plot_otf"]}
{"id": "C81", "title": "PSF object plot_psf and plot_otf", "statement": "plot_psf and plot_otf of a HanserPSF raise RuntimeError, leaving the object as it was, when there are fewer than three z planes or a step differs from the average step by more than 1e-8 + 1e-5 of it (non-finite planes are refused too, except the ranges -inf,z,inf); planes generated from zsize/zres are refused exactly below three planes; a SheppardPSF is never refused. Otherwise plot_psf draws the window of rounded widths 32 Abbe limits / res laterally and 16 axial resolutions / zres around the first maximum, clipped at the edges, and plot_otf draws |OTFi| divided by the sum of PSFi, clipped from below at 2^-52, with centre 1. Axial axes are scaled with zres even when an explicit zrange has another spacing.", "quantifier": "all reachable HanserPSF/SheppardPSF objects, all z ranges and parameters", "why_tests_cant": "all object states, z ranges and images", "anchors": ["pyotf/otf.py:BasePSF._validate_zrange", "pyotf/otf.py:BasePSF.plot_psf", "pyotf/otf.py:BasePSF.plot_otf"]}
{"id": "C82", "title": "Which constructor calls are accepted", "statement": "For real wl, na, ni, res and zres (omitted: res), HanserPSF(...) and SheppardPSF(...) succeed exactly when wl and na are positive, ni is not negative (Sheppard: positive), res < wl/(2 na), zres > 0 (Sheppard: also < wl/(2 ni)), size and zsize are non-negative ints, vec_corr and condition are documented names and (Sheppard) dual is a bool. The order of keyword arguments does not matter, passing a keyword with its documented default is the same as leaving it out, and an unknown keyword or a missing wl, na, ni or res is a TypeError.", "quantifier": "all argument values", "why_tests_cant": "exact acceptance region over a ten-dimensional argument space", "anchors": ["pyotf/otf.py:BasePSF.__init__", "pyotf/otf.py:HanserPSF.__init__", "pyotf/otf.py:SheppardPSF.__init__"]}
{"id": "C83", "title": "Plots of phase retrieval results", "statement": "plot() of a retrieval result or of a Zernike decomposition shows, on the first and second axes given (or two new ones), the phase in [-pi, pi] and the magnitude of the complex pupil it returns, with the phase blank exactly where the magnitude is 0 (always outside the aperture; nowhere inside after a phase-only retrieval); any other number of axes raises ValueError. plot_convergence() draws mean squared error, relative change in error and relative change in pupil, one point per iteration, top to bottom. plot_coefs() draws one bar per mode at its Noll number; bar heights times modes sum to the reconstructed magnitude and phase. plot_named_coefs() with at least 15 coefficients draws eleven bars at Noll numbers 5 to 15, each labelled with the name whose phase coefficient is its height; with exactly 5 coefficients it draws eleven bars of the fifth coefficient's height, with any other number below 15 it raises ValueError.", "quantifier": "all stacks, parameters, iteration numbers, tolerances, decompositions, slices and axes", "why_tests_cant": "ranges over all results and all numbers of coefficients", "anchors": ["pyotf/phaseretrieval.py: PhaseRetrievalResult.plot, plot_convergence, ZernikeDecomposition.plot, plot_coefs, plot_named_coefs, _plot_complex_pupil"]}
{"id": "C84", "title": "Lateral symmetries with polarisation", "statement": "For every vec_corr and condition setting of a sampled HanserPSF: a pupil that is symmetric in ky (in kx) and zero outside the aperture gives a PSFi that is symmetric in y (in x) about pixel size//2 (periodically); transposing the pupil transposes PSFi, with vec_corr 'x' and 'y' exchanged and the other settings unchanged. The ideal pupil has all these symmetries, so PSFi of 'total', 'z' and 'none' has the symmetry of the square and PSFi of 'y' is the transpose of that of 'x'.", "quantifier": "all parameters with na > 0 and res below the Abbe limit, all sizes, all pupils with the symmetry, all planes and pixels, all object histories", "why_tests_cant": "quantifies over all parameters, sizes (even and odd) and pupils", "anchors": ["pyotf/otf.py: HanserPSF._gen_psf, PSFi"]}
{"id": "C85", "title": "Units do not matter", "statement": "Measuring all lengths (wl, res, zres or the z positions) in another unit, or multiplying wl, na and ni by a common positive factor, leaves PSFa, OTFa, PSFi and OTFi of a HanserPSF and of a SheppardPSF unchanged: the same array or the same exception.", "quantifier": "all positive factors, all parameters (physical or not), all pupils, all settings, all object histories", "why_tests_cant": "holds for every factor and parameter set (exact arithmetic)", "anchors": ["pyotf/otf.py: HanserPSF._gen_psf, SheppardPSF._gen_otf, _gen_kr"]}
{"id": "C86", "title": "Planes of a HanserPSF are computed independently", "statement": "If two HanserPSF objects have the same attributes except for their z positions, then planes at the same height agree (amplitude and intensity), whatever the other planes, their number, order and spacing are; reordering or extending zrange reorders or extends the stack.", "quantifier": "all parameters, all z ranges, all pupils, all object histories", "why_tests_cant": "quantifies over all pairs of z ranges", "anchors": ["pyotf/otf.py: HanserPSF._calc_defocus, _gen_psf, zrange"]}
{"id": "C87", "title": "Brightness of the data in phase retrieval", "statement": "When no tolerance stops the run, retrieve_phase on data c times as bright (c > 0) returns, after every number of iterations, the pupil times sqrt(c) and a PSF c times as bright (with phase_only: the same pupil and PSF); recorded errors scale with c squared from the second entry on and the relative changes recorded from the third entry on are unchanged. mse_tol, however, is compared with the absolute error: for every positive mse_tol, a stack recorded dimly enough is iterated at most twice whatever max_iters is.", "quantifier": "all usable data and parameter dictionaries, all c > 0, all allowances, all unwrapping functions", "why_tests_cant": "relates two runs for every data set, factor and number of iterations", "anchors": ["pyotf/phaseretrieval.py: retrieve_phase", "pyotf/utils.py: psqrt"]}
{"id": "C88", "title": "Commands run to find the version", "statement": "run_command tries its program names in order, starts the first that exists and no other, returns its decoded, stripped output when it exits with 0, only its status otherwise, and (None, None) if none can be started; undecodable output raises. Computing the version (import of pyotf) never starts anything but five read-only git queries, at most once each per name, in a fixed order and in the root of the source tree; nothing at all when git archive filled in the keywords. The version obtained through the commands is the one derived from git's answers (C67); without git it is '0+unknown' after one attempt.", "quantifier": "all program lists, arguments, directories and all behaviours of the programs; all keywords, configurations and file locations", "why_tests_cant": "ranges over every behaviour of the outside world", "anchors": ["pyotf/_version.py: run_command, git_pieces_from_vcs, get_versions"]}
{"id": "C89", "title": "Keywords read from the version file", "statement": "git_get_keywords returns, for each of git_refnames, git_full and git_date, the value of the last line NAME = \"VALUE\" of the file (quotes inside VALUE included, any indentation, anything without a quote after it, any line ends); a keyword that begins no line is missing; an unreadable file gives no keywords. The version derived from a file equals the one derived from the imported module's keywords.", "quantifier": "all texts and line ends", "why_tests_cant": "all file contents", "anchors": ["pyotf/_version.py: git_get_keywords, get_keywords"]}
{"id": "C90", "title": "Phase retrieval does not depend on mounting, direction, order or units", "statement": "Two stacks of one specimen that differ by mirroring rows or columns about pixel n//2, exchanging rows and columns, counting z the other way, reordering the planes (with zrange reordered alike), changing the unit of length, or scaling na, ni and wl together, or any combination, give retrievals that stop after the same number of iterations with the same mse, mse_diff and pupil_diff records, for every tolerance, max_iters and phase_only; the PSFs show the same and the pupil is the first pupil moved accordingly (from the other side: turned by half a turn and conjugated). So a symmetry of the data is a symmetry of the retrieved pupil.", "quantifier": "all data, parameters, views, tolerances, iteration counts", "why_tests_cant": "symmetry of the whole iteration for all data and all numbers of iterations", "anchors": ["pyotf/phaseretrieval.py: retrieve_phase, calc_mse, the iteration loop", "pyotf/otf.py: HanserPSF.apply_pupil, _gen_psf, _gen_pupil"]}
{"id": "C91", "title": "The axes argument of easy_fft and easy_ifft", "statement": "axes may be None or a sequence of integers between -ndim and ndim-1. Distinct axes, counted from either end and in any order, give the centred transform over these axes. A value out of range raises IndexError, a bare integer TypeError, a transformed axis without points ValueError; nothing else fails. An axis of n points listed twice gives n times the data with element k taken from (4*(n//2) - k) mod n.", "quantifier": "all shapes, contents and axes arguments", "why_tests_cant": "all ranks, all axes lists", "anchors": ["pyotf/utils.py: easy_fft, easy_ifft"]}
{"id": "C92", "title": "The orientations of a SIM microscope stand for a set of lines", "statement": "Listing the orientations of a SIM microscope in another order, or turning any of them by a multiple of 180 degrees, changes neither the PSF nor the OTF (literally the same outcome: the same arrays or the same exception), and constructs exactly when the original does, raising the same exception otherwise. The angles (0, 2 pi/3, 4 pi/3) of the module's example are the lines (0, pi/3, 2 pi/3).", "quantifier": "all constructor arguments, all lists of orientations, all permutations and half turns", "why_tests_cant": "holds for every list, permutation and set of parameters (exact arithmetic)", "anchors": ["pyotf/microscope.py: BaseSIMMicroscope, SIM2DMicroscope, SIM3DMicroscope"]}
{"id": "C93", "title": "Units do not matter for whole objects, microscopes and phase retrieval", "statement": "If the arguments are given in another unit of length, or wl, na, ni (and the excitation's) are multiplied by a common positive factor, then PSF objects and microscopes are accepted or refused alike (same exception); the same history of operations in the new unit has the same outcomes; PSFs and OTFs (widefield, confocal, Apotome, SIM) are the same arrays or the same exception; retrieve_phase returns the same pupil, errors, Zernike fits and generated PSFs, with k-space coordinates in the new unit. For the SIM classes na, wl, na_exc, wl_exc must keep their type (float or not), which these classes check.", "quantifier": "all positive rational factors, all arguments of any type, all histories", "why_tests_cant": "holds for every factor, argument and history (exact arithmetic)", "anchors": ["pyotf/otf.py: HanserPSF, SheppardPSF", "pyotf/microscope.py: WidefieldMicroscope, ConfocalMicroscope, ApotomeMicroscope, BaseSIMMicroscope", "pyotf/phaseretrieval.py: retrieve_phase, PhaseRetrievalResult"]}
{"id": "C94", "title": "Keyword arguments of the plotting functions and methods", "statement": "psf_plot and otf_plot hand each of their three imshow calls exactly: every keyword of the caller the function does not use itself, unchanged, and, where the caller gave none, norm (a power law with the caller's gamma, 0.5 by default, or a logarithm, with the caller's vmin and vmax), interpolation 'nearest' and cmap 'inferno'. No such keyword changes what is drawn. They draw in the caller's figure and position, or a new one at 111. A repeated array argument, a missing size or 'extent' raises TypeError. The plot methods of PSF objects and microscopes behave as the plot without keywords does, state included, with the caller's keywords passed on (vmin 1e-4 by default for OTFs); sizes and optical constants are the object's and giving one is a TypeError.", "quantifier": "every set of keyword arguments with any values, every array, every object state", "why_tests_cant": "any combination of keywords and values can be passed; a test tries a few.", "anchors": ["pyotf/display.py:psf_plot", "pyotf/display.py:otf_plot", "pyotf/otf.py:BasePSF.plot_psf", "pyotf/otf.py:BasePSF.plot_otf", "pyotf/microscope.py:WidefieldMicroscope.plot_psf", "pyotf/microscope.py:WidefieldMicroscope.plot_otf"]}
{"id": "C95", "title": "Interrupting an operation at any point", "statement": "A read of PSFa, OTFa, PSFi or OTFi that is interrupted (KeyboardInterrupt) between any two of its steps leaves no trace: in any history of assignments, reads and apply_pupil with any number of interrupted reads, the parameters and every later read are the same as without them. An interrupted assignment leaves the attribute with its old value or the accepted new one, zrange likewise, all other attributes unchanged and valid, and adds no array; it can leave arrays of the old parameters, which any later accepted change removes. Repeating it repairs everything for the setters that always clear (res, zres, vec_corr, condition, dual, zrange, zsize of HanserPSF) but not for wl, na, ni and size. An interrupted apply_pupil leaves a model that is right without a pupil or with the new one, except while an earlier pupil is being cleared.", "quantifier": "every history, every operation, every interruption point, every engine", "why_tests_cant": "an interrupt may come between any two steps of any operation after any history; a test cannot place one there, let alone everywhere.", "anchors": ["pyotf/otf.py:BasePSF._attribute_changed", "pyotf/otf.py:HanserPSF._gen_psf", "pyotf/otf.py:HanserPSF.apply_pupil", "pyotf/otf.py:SheppardPSF._gen_otf", "pyotf/utils.py:NumericProperty"]}
{"id": "C96", "title": "Threads that read the same objects", "statement": "Any number of threads may read the arrays of any number of HanserPSF and SheppardPSF objects at the same time: under every interleaving of their steps each read returns what it would have returned alone, the parameters do not change and later reads are right. With the locks of functools.cached_property (Python 3.8 to 3.11) as without (3.12 on), they never deadlock, they finish after a bounded number of steps and each thread has then done its reads in order. A thread that assigns at the same time can leave an array of the old parameters in the cache.", "quantifier": "every number of threads and objects, every list of reads, every schedule, every prior history, both lock disciplines", "why_tests_cant": "a race shows up in particular schedules only; a test sees a few of them.", "anchors": ["pyotf/otf.py:BasePSF.PSFi", "pyotf/otf.py:BasePSF.OTFi", "pyotf/otf.py:HanserPSF.PSFa", "pyotf/otf.py:HanserPSF.OTFa", "pyotf/otf.py:SheppardPSF.OTFa", "pyotf/otf.py:SheppardPSF.PSFa", "pyotf/otf.py:BasePSF._attribute_changed"]}
{"id": "C97", "title": "Rounding does not move pixels", "statement": "Computed in IEEE double precision, the decisions that sort pixels come out as in exact arithmetic: radial_profile with bins of one pixel, about the default centre or any point on or half way between pixels, puts every pixel in the bin of its true distance (ties to even), so the profile is the one of exact binning; the pinhole of a confocal microscope never lets in a pixel outside the disc, leaves out only pixels whose distance equals the radius to 53 bits (none for radii with at most six binary places), has the exact array size, and its values add up to 1 within one rounding; the passband of a HanserPSF is the mathematical one except for pixels within a relative 2^-50 of the edge, and is exactly symmetric under reflections and transposition.", "quantifier": "every array shape of up to 32 axes of up to 2^20 pixels; every double radius up to 2^20; every pixel, NA, wavelength, resolution and size short of underflow; every hypot within one unit in the last place", "why_tests_cant": "a wrong decision at one borderline pixel out of all sizes and parameters is what a test on a few images misses; tests also cannot tell rounding luck from a guarantee.", "anchors": ["pyotf/utils.py:radial_profile", "pyotf/microscope.py:_disk_kernel", "pyotf/otf.py:HanserPSF._gen_kr", "pyotf/otf.py:HanserPSF._gen_pupil", "pyotf/utils.py:cart2pol"]}
{"id": "C98", "title": "The default z range in floating point", "statement": "The z positions a HanserPSF derives from zsize and zres, computed in IEEE double precision, contain focus exactly, are exactly antisymmetric about it and strictly increasing, and plot_psf and plot_otf never refuse them for uneven steps, whatever order the mean step is summed in (from three planes on; shorter ranges are always refused).", "quantifier": "every zsize from 3 to 2^30, every zres short of underflow, every summation order", "why_tests_cant": "the differences of rounded multiples are never all equal; only a bound over all sizes and resolutions shows that the tolerance always suffices.", "anchors": ["pyotf/otf.py:HanserPSF._gen_zrange", "pyotf/otf.py:BasePSF._validate_zrange"]}
{"id": "C99", "title": "Normalisation in floating point", "statement": "A microscope's PSF divided by its sum in IEEE double precision has all values between 0 and 1, keeps the order of the pixels' brightness, and adds up to 1 within 2^-52 per pixel, in whatever order numpy adds.", "quantifier": "every non-negative data set of up to 2^40 doubles that is not all zero, every summation order", "why_tests_cant": "the error depends on the data and on numpy's blocking; a test sees one sum.", "anchors": ["pyotf/microscope.py:WidefieldMicroscope.PSF"]}
{"id": "C100", "title": "Limits and the Sheppard shell in floating point", "statement": "Computed in IEEE double precision, the resolution limits are the mathematical ones: a lateral pixel size is refused exactly from the Abbe limit wl/(2 na) on and an axial one from wl/(2 ni) on, except within a relative 2^-49 of the limit; a SheppardPSF whose aperture does not exceed the refractive index is never refused because of rounding, one exceeding it by a relative 2^-49 always is. The points of the spherical shell a SheppardPSF fills are the mathematical ones except within a relative 2^-46 of the shell's edge or 2^-23 of its polar limit, and the filled set is exactly symmetric under reflection in y and in x (and in z for the 4pi case).", "quantifier": "every wavelength, index, aperture, pixel size between 2^-100 and 2^100, sizes from 3 to 2^53, every point, every square function (C pow) that is monotone and within one unit in the last place", "why_tests_cant": "the comparisons happen at the edge of float precision; only an error bound over all parameters separates the safe points from the doubtful ones.", "anchors": ["pyotf/otf.py:BasePSF.res", "pyotf/otf.py:SheppardPSF.zres", "pyotf/otf.py:SheppardPSF._gen_kr", "pyotf/otf.py:SheppardPSF._gen_pupil"]}
{"id": "C101", "title": "Interrupting an operation on a microscope", "statement": "A read of PSF, OTF or model_psf of a microscope that is interrupted between any two steps (its own or those of the models it reads) leaves it answering every read as before: its attributes and those of its models are unchanged, and each cached array is the old one or the right one. After any history with any number of interrupted reads the microscope is one that an uninterrupted history could have left, in which each interrupted read is dropped or completed. An interrupted assignment leaves the old value or the accepted new one, for each array the old one or none (the PSF goes first, and no array goes before the value is stored), and touches nothing else. Repeating an assignment that was interrupted after the value was stored is skipped, so arrays of the old value stay; any later assignment of a different value repairs them.", "quantifier": "all four kinds of microscope, every history, every read and assignment, every interruption point, both lock disciplines of cached_property", "why_tests_cant": "an interrupt may come between any two of dozens of steps, spread over three objects, after any history.", "anchors": ["pyotf/microscope.py:WidefieldMicroscope.PSF", "pyotf/microscope.py:WidefieldMicroscope.OTF", "pyotf/microscope.py:WidefieldMicroscope._attribute_changed", "pyotf/microscope.py:ConfocalMicroscope.model_psf", "pyotf/microscope.py:ApotomeMicroscope.model_psf", "pyotf/microscope.py:BaseSIMMicroscope.model_psf", "pyotf/utils.py:NumericProperty"]}
{"id": "C102", "title": "Threads that read the same microscopes", "statement": "Any number of threads may read PSF, OTF and model_psf of any number of microscopes at the same time: under every interleaving of their steps each read gives what it would have given alone, the microscopes' attributes do not change, their cached arrays stay the old or become the right ones, and later reads are right. With the locks of functools.cached_property (microscope and models nested) as without, they never deadlock, finish after at most 85 steps per read, and each thread has then done its reads in order.", "quantifier": "every number of threads and microscopes of all four kinds, every list of reads, every schedule, every prior history, both lock disciplines", "why_tests_cant": "a race or a deadlock through nested locks shows up in particular schedules only.", "anchors": ["pyotf/microscope.py:WidefieldMicroscope.PSF", "pyotf/microscope.py:WidefieldMicroscope.OTF", "pyotf/microscope.py:WidefieldMicroscope.model_psf", "pyotf/microscope.py:ConfocalMicroscope.model_psf", "pyotf/otf.py:BasePSF.PSFi"]}
{"id": "C103", "title": "The life of a phase retrieval result", "statement": "A PhaseRetrievalResult may be used in any order and any number of times. Its methods change nothing in it but zd_result, and never touch its model. fit_to_zernikes depends only on mag, phase and what was stored when the result was made, not on what the user does to the model meanwhile. generate_zd_psf raises AttributeError until a fit has succeeded; from then on it uses the decomposition of the most recent fit that got as far as storing it (fits that raise, or are interrupted before, leave the old one in force), the very object the fit returned: coefficients the user writes into it are used, and decompositions obtained earlier keep their numbers. Every generated PSF is computed from scratch from mag and phase (or the decomposition) and the model's current attributes with the zsize and zrange asked for, so pupils applied to the model, cached arrays and earlier calls play no part and the answer stays the same as long as mag, phase and the attributes are the same. If the user changes the model's size, generate_psf raises ValueError while fits still work. complex_pupil is always mag * exp(i phase) of the current arrays.", "quantifier": "every result of a retrieve_phase call that returns, every history of method calls (with any arguments, failing, interrupted or not), operations on the model, assignments of mag and phase, and edits of decompositions", "why_tests_cant": "the order of calls and what the user does between them is unbounded.", "anchors": ["pyotf/phaseretrieval.py:PhaseRetrievalResult.fit_to_zernikes", "pyotf/phaseretrieval.py:PhaseRetrievalResult.generate_psf", "pyotf/phaseretrieval.py:PhaseRetrievalResult.generate_zd_psf", "pyotf/phaseretrieval.py:PhaseRetrievalResult._generate_psf", "pyotf/phaseretrieval.py:PhaseRetrievalResult.complex_pupil"]}
{"id": "C104", "title": "Writing into arrays the library handed out", "statement": "PSFa, OTFa, PSFi and OTFi hand out the very array the object stores: reading again gives the same array, and a write into it (psf.PSFi *= 2, out=...) changes what later reads return. Such a write reaches exactly the slots that hold that array: one slot of one object, as long as no copy of the object was left behind (copy.copy, an aberration helper called without coefficients, a helper that raised); a copy made while the array was cached shares it. A freshly computed array is held by no other slot or object. Properties read before the write are not recomputed; those first read after it are computed from the written contents. Nothing written survives an accepted assignment or apply_pupil: the object is then as if the caller had not written. The library itself never writes into an array that exists (save reshaping a 0-d zrange).", "quantifier": "every sequence of constructions, copies, assignments, reads, applied pupils, aberrations and generated PSFs on any number of objects of both classes, interleaved with any writes into cached arrays and z ranges", "why_tests_cant": "which objects alias which array depends on the whole history.", "anchors": ["pyotf/otf.py:BasePSF.PSFi", "pyotf/otf.py:BasePSF.OTFi", "pyotf/otf.py:BasePSF._attribute_changed", "pyotf/otf.py:HanserPSF.apply_pupil", "pyotf/otf.py:apply_aberration", "pyotf/phaseretrieval.py:PhaseRetrievalResult._generate_psf"]}
{"id": "C105", "title": "Sizes computed by rounding lengths are the exact ones except at ties", "statement": "Computed in IEEE double precision, three sizes agree with exact arithmetic. The Apotome's cut-off is the whole number nearest to size * pixel_size / (wl / na / 4) / 2 for every oversampling factor (which cancels), and the axial profile is read at half of it, unless that quotient is within a relative 2^-48 of a tie; next to a tie it is at most one off. The confocal pinhole is applied exactly when its radius exceeds 1.5 pixels, and its kernel contains exactly the pixels nearer than the radius and has the exact size, except within a relative 2^-47 of the thresholds. plot_psf of PSF objects and microscopes crops the window of the exact widths (32 Abbe limits, 16 axial resolutions) unless a width is next to a tie (relative 2^-48 laterally, 2^-20 axially, where ni - sqrt(ni^2 - na^2) cancels), and then each width is at most one pixel off.", "quantifier": "every wavelength, aperture, pixel size, z step and pinhole size between 2^-100 and 2^100, every size up to 2^30 and every oversampling up to 2^20, ni/1024 <= na <= ni, any C library square that is monotone and accurate to one ulp", "why_tests_cant": "the error of a chain of rounded operations has to be bounded for all doubles; tests see a handful of them and no ties.", "anchors": ["pyotf/microscope.py:ApotomeMicroscope.model_psf", "pyotf/microscope.py:ConfocalMicroscope.model_psf", "pyotf/microscope.py:_disk_kernel", "pyotf/microscope.py:WidefieldMicroscope.plot_psf", "pyotf/otf.py:BasePSF.plot_psf"]}
{"id": "C106", "title": "Phase retrieval converges", "statement": "With phase_only False: each iteration lowers the amplitude error by at least the light of the difference between the old and the new pupil, and from the first iteration on raises the total light of the PSF by at least the same amount, never above the sum of the (clipped) data. Hence with a pupil tolerance t > 0 the number of iterations L satisfies (1+t)^(L-3) * overlap^2 <= light * measured, where overlap is the sum of sqrt(data)*sqrt(PSF) for the unaberrated PSF; and whenever both tolerances are positive there is an allowance from which every run stops by meeting a tolerance and returns one and the same result, whatever the data.", "quantifier": "all usable data (any size, any number of planes, any values), all parameters, all tolerances, every iteration and every max_iters", "why_tests_cant": "that a loop ends for every input is not something a finite number of runs can show, and the bound must hold at every iteration", "anchors": ["pyotf/phaseretrieval.py:retrieve_phase", "pyotf/phaseretrieval.py:_calc_mse"]}
{"id": "C107", "title": "Plane counts that numpy broadcasts", "statement": "If params holds an explicit zrange of m positions and the data one plane, retrieve_phase runs as if that plane had been recorded at each of the m positions: same mse, mse_diff and pupil_diff records, same magnitude, complex pupil and PSF. If the zrange has one position and the data nz planes, and mse_tol is not positive, it runs as if the data were the one plane whose amplitude is the mean of the planes' amplitudes (negative counts clipped): same number of iterations, same pupil_diff record, same magnitude, complex pupil and PSF. Any other mismatch is refused (C49).", "quantifier": "all data values, sizes, numbers of planes and positions, parameters, tolerances, max_iters, phase_only", "why_tests_cant": "the equivalence must hold at every iteration and for all data; a test compares two runs on one data set", "anchors": ["pyotf/phaseretrieval.py:retrieve_phase", "pyotf/phaseretrieval.py:_calc_mse"]}
{"id": "C108", "title": "Several microscopes, shared PSF objects and writing callers", "statement": "After any program that builds and copies (copy.copy) microscopes and PSF objects, assigns to and reads from either, hands one PSF object to several microscopes (scope.model = psf, scope.model_exc = psf) and writes into any array it was handed, each microscope is what its own operations (C53-C63) make of it, with its PSF objects as they have become and the written contents in the arrays it holds. A new microscope has cached nothing and gets PSF objects of its own; a copy looks the same and refers to the same PSF objects and arrays. Using a microscope changes nothing about microscopes it shares no PSF object with, and writes into no existing array. scope.PSF and scope.OTF hand out the array the microscope keeps: a repeated read gives the same one, a first read a new one, and without copies of microscopes no array is ever held by two. What the caller writes into PSF is what PSF is from then on, for the microscopes that hold the array; OTF is computed from it if first read afterwards and unaffected if read before. A WidefieldMicroscope's model_psf is the array PSFi of its PSF object itself: a write changes a PSF first read afterwards, and no PSF already read; the other microscopes' model_psf is a new array.", "quantifier": "every sequence of constructions, assignments, reads, copies of PSF objects, sharing of PSF objects and caller writes, over any number of microscopes of all four kinds and PSF objects of both classes", "why_tests_cant": "which objects alias which array depends on the whole history, and non-interference is about every other object in every program", "anchors": ["pyotf/microscope.py:WidefieldMicroscope.PSF", "pyotf/microscope.py:WidefieldMicroscope.OTF", "pyotf/microscope.py:WidefieldMicroscope.model_psf", "pyotf/microscope.py:WidefieldMicroscope._attribute_changed", "pyotf/microscope.py:ConfocalMicroscope.__init__", "pyotf/microscope.py:ConfocalMicroscope.model_psf"]}
{"id": "C109", "title": "Lateral cut-off of the microscopes", "statement": "With a Hanser model (any condition, z range, odd oversampling and, for widefield and confocal, any vec_corr) whose image is not black, the OTF of WidefieldMicroscope and ApotomeMicroscope is exactly 0 at every axial frequency when the lateral frequency sqrt(fy^2 + fx^2) is 2 na / wl or more; that of ConfocalMicroscope whose pinhole radius is at most 1.5 pixels of the model (no convolution) is 0 from 2 na / wl + 2 na / wl_exc on. Frequencies are those of the microscope's own pixels: (k - size//2) / (size * pixel_size). Binning, rolling, the Apotome's factors and normalising never create lateral frequencies.", "quantifier": "all numeric settings, sizes, odd factors and z ranges, all frequencies of the OTF", "why_tests_cant": "exact zero at every frequency beyond the limit for every setting; a test shows small numbers at some frequencies of a few settings", "anchors": ["pyotf/microscope.py: WidefieldMicroscope.PSF, WidefieldMicroscope.OTF, ConfocalMicroscope.model_psf, ApotomeMicroscope.model_psf", "pyotf/otf.py: HanserPSF._gen_pupil", "pyotf/utils.py: bin_ndarray, easy_fft"]}
{"id": "C110", "title": "What oversampling does to the OTF", "statement": "Let q be a microscope's model_psf (finite, not black), f its odd oversampling factor. OTF[kz, ky, kx] is the sum, over the f x f entries of easy_fft(q) in plane kz whose lateral frequencies differ from those of (ky, kx) by multiples of size, of that entry times T(py) T(px), divided by the light of q, where T(p) = (1/f) sum over |j| <= f//2 of cos(2 pi p j / (size f)) is the transfer function of a pixel (T(0) = 1, |T| <= 1). For a Hanser WidefieldMicroscope with pixel_size <= wl / (4 na) there is no aliasing: OTF is the central size x size part of model.OTFi times T T, divided by the centre of model.OTFi.", "quantifier": "all microscopes with a finite image, all sizes, odd factors, images and frequencies", "why_tests_cant": "an identity at every frequency for every image, parity and factor", "anchors": ["pyotf/microscope.py: WidefieldMicroscope.PSF, WidefieldMicroscope.OTF", "pyotf/utils.py: bin_ndarray, easy_fft"]}
{"id": "C111", "title": "Lateral cut-off and light of SheppardPSF", "statement": "Let p be a SheppardPSF's parameters (wl, res, zres > 0, na <= ni) and reach = sqrt((na/wl)^2 + 2 d (ni/wl - cone)), d the coarser of the two frequency pixels, cone = sqrt((ni/wl)^2 - (na/wl)^2); na/wl <= reach <= na/wl + sqrt(2 d ni/wl). OTFa is zero at lateral frequencies of reach or more; if all amplitudes are numbers (always with dual=False), OTFi is zero from 2 reach on, whatever was done to the object before, and so is the OTF of a WidefieldMicroscope with model='sheppard' (any odd oversampling) whose band is not empty. The sum of PSFi is the sum of |OTFa|^2 divided by zsize size^2, and positive unless the OTF is zero.", "quantifier": "all parameters, sizes (odd and even), resolutions, vec_corr, condition, single and dual shells without NaN, histories, and frequencies", "why_tests_cant": "an inequality over every frequency of every grid and parameter", "anchors": ["pyotf/otf.py: SheppardPSF._gen_kr, SheppardPSF._gen_otf, SheppardPSF.PSFa, BasePSF.PSFi, BasePSF.OTFi", "pyotf/microscope.py: WidefieldMicroscope.PSF, WidefieldMicroscope.OTF"]}
{"id": "C112", "title": "SheppardPSF: OTFi is the autocorrelation of OTFa; axial cut-off and missing cone", "statement": "Let A be OTFa of a SheppardPSF (wl, res, zres > 0) all of whose amplitudes are numbers (always with dual=False), N = zsize size^2, and K = (kz, ky, kx) an index with frequency K - centre. OTFi at K is 1/N times the sum over the components and over all indices k of A[k] * conj A[k - (K - centre)], indices taken cyclically, times, for each axis of odd length m, the phase exp(-2 pi i (K - m//2) / m) (none for even lengths). Hence OTFi is exactly zero where no two nonzero amplitudes lie that far apart; in the scalar case it is 1/N times the number of pairs of points of the shell that do, a nonnegative real number if all lengths are even. With dual=False OTFi is zero for axial frequencies from ni/wl + d - cone on (d the coarser of the two frequency pixels, cone = sqrt(ni^2 - na^2)/wl), and on the optical axis (ky = kx = centre, na < ni) already from 2 d (ni/wl + d) / cone on: the missing cone. With both caps (dual=True) OTFi is zero for axial frequencies of at least twice ni/wl + d, and, if the z sampling leaves room (|f| + 2 (ni/wl + d) <= 1/zres), between ni/wl + d - cone and 2 cone: a central band and two side bands. It holds for objects after any history of reads and assignments.", "quantifier": "all physical parameter sets (any wavelength, aperture, index, pixel sizes, grid sizes of either parity, vector correction, condition, dual where stated), all frequency indices, all constructor calls and histories of operations", "why_tests_cant": "a test compares finitely many grids; the identity sums over every pair of points of the shell and must hold for every size and parity, and the exact zeros are invisible behind rounding errors in a numerical test", "anchors": ["pyotf/otf.py: SheppardPSF._gen_otf, BasePSF.OTFi, BasePSF.PSFi", "pyotf/utils.py: easy_fft, easy_ifft"]}
{"id": "C113", "title": "Axial frequencies of microscopes with a Sheppard model", "statement": "With model=\"sheppard\", an axial frequency of WidefieldMicroscope.OTF that is not (cyclically, in cycles per stack) the distance of two planes of the model's shell in which OTFa is non-zero is exactly zero at every lateral frequency, whatever the (odd) oversample_factor; binning neighbouring pixels mixes lateral frequencies only. For ConfocalMicroscope, with any pinhole, every axial frequency that is not a sum of one distance of detection planes and one distance of excitation planes is absent. With dual=False no axial frequency at or above (ni - sqrt(ni^2 - na^2))/wl plus one grid step is left in the widefield OTF, and none at or above the sum of the detection's and the excitation's limit in the confocal one. A confocal microscope with a scalar model whose two shells are lit always has light to normalise by, through every pinhole. At zero lateral frequency the widefield OTF is the model's own OTFi divided by the total light, whatever the oversampling, so with dual=False and na < ni it is exactly zero there (the missing cone) for every axial frequency outside the shell's own thickness.", "quantifier": "all accepted constructor arguments with a Sheppard model and keyword arguments (sizes, odd oversampling factors, pixel sizes, apertures, indices, wavelengths, zres, zsize, vec_corr, condition, dual), all excitation wavelengths and pinhole sizes, all axial frequencies and all lateral frequencies of the grid", "why_tests_cant": "The claim is exact vanishing of whole planes for all grids, apertures, pinholes and oversampling factors; a test sees one configuration, and floating-point noise instead of zeros.", "anchors": ["pyotf/otf.py: SheppardPSF._gen_otf, SheppardPSF.PSFi", "pyotf/microscope.py: WidefieldMicroscope.PSF, WidefieldMicroscope.OTF, ConfocalMicroscope.model_psf", "pyotf/utils.py: easy_fft"]}

# DESIGN — formal model of pyOTF in Coq 8.16.1

`properties.jsonl` lists the properties (C01 … C113), `MANIFEST.json` maps each to its theorems,
`rocq/theories/` holds the model and the proofs, `seeded/LOG.jsonl` the experiments with wrong programs.

## 1. Layout

| prefix | contents |
|--------|----------|
| `Base.v` | exceptions (`exn`), results (`res A = Ok x \| Err e`), sequencing (`do x <- m; k`) |
| `M_*.v` | the model: Gallina functions that follow the Python functions branch by branch; every definition cites the file and lines it models and says what it leaves out |
| `S_*.v` | small independent specifications (textbook definitions, written without the model's helpers) |
| `L_*.v` | lemmas |
| `T_*.v` | the property theorems `Cnn_...`, each followed by `Print Assumptions`, with `Example`s beside them that exhibit a concrete non-trivial case meeting the hypotheses |

No axiom, no `Admitted`, no functor or module type; `Section` variables are discharged and show up as
explicit arguments of the theorems.

## 2. Modelling decisions

* **Python numbers.** ints are `Z`; `//` and `%` are `Z.div`, `Z.modulo` (both floor). Attribute values are
  `pyval` (int, bool, float, complex, str, None, unhashable); floats there are exact rationals plus NaN and
  the infinities (`fl`), because the objects' state machine compares and stores them.
* **Physical arithmetic** is exact: reals (`R`, Coquelicot's `C`), no rounding. The exceptions are the Noll
  index formula (`noll2degrees`: IEEE binary64 by Flocq, since there rounding decides the result), the decisions
  re-examined in binary64 by `M_Float.v`, `M_Float2.v` (C97–C100, rounding to nearest even with gradual underflow, no overflow), and places
  where numpy arithmetic can yield NaN or infinities (`option R`, `option C`, with `None` = non-finite; `squeeze`).
* **Arrays** are a shape (`list Z`) and an index function; two arrays are equal when shapes are and all in-bounds
  elements are. `reshape` goes through C-order ravel/unravel; slicing, `np.pad`, `np.roll`, `argmax`, `bincount`
  are modelled in `M_Array.v`, `M_Utils.v`.
* **Fourier transforms** are the textbook finite sums along a set of axes (`M_FFT.v`). `fftconvolve` is the exact
  convolution.
* **Objects** (`HanserPSF`, `SheppardPSF`, microscopes) are state machines with an explicit attribute table and an
  explicit cache per `cached_property`; methods are `state -> result * state`, so effects made before an exception stay.
  The object machine `M_PSF.v` is parameterised by an *engine* (the array computations), hence C24–C28 hold for every
  numerical back end; `M_Engine.v` supplies the real one.
* **Aliasing** (`copy.copy`, shared z range array) is modelled in `M_Heap.v`, with references.
* **matplotlib** is outside: what is modelled is the data handed to each call. **Text** of `repr` is modelled as
  class name plus keyword/text pairs; strings of `_version.py` as lists of characters.

## 3. Properties: what is modelled and how it is proved

| id | model | theorems | proof |
|----|-------|----------|-------|
| C01–C04 `fft_pad` shape, alignment, round trip, arguments | `M_Utils`: `_calc_pad`, `_calc_crop`, `_padding_slices`, `fft_pad`; `M_Array`: pad, slicing | `T_Utils` | floor-division arithmetic per axis, induction on the rank |
| C05 `slice_maker` | `M_Utils`, exact rationals | `T_Utils` | arithmetic |
| C06, C07 `easy_fft`, `easy_ifft` | `M_FFT` | `T_FFT`, `T_FFT2` | roots of unity, induction over the axes; odd axes: exact description of what the inverse returns, with a witness that it is not the input |
| C91 the `axes` argument | `M_Axes` | `T_Axes` | negative, repeated, out-of-range axes and bare integers; transforms one axis at a time shown equal to the joint one |
| C08, C12 `cart2pol`, `psqrt` | `M_Polar` | `T_Polar` | trigonometry |
| C09 `NumericProperty` | `M_Val.numeric_fset`, any object type, attribute and hook | `T_PSF` | case analysis |
| C10, C11, C13 `center_data`, `remove_bg`, `prep_data_for_PR` | `M_Utils` | `T_Utils` | index arithmetic, first-maximum and first-mode lemmas, rolls are permutations |
| C14 `bin_ndarray` | `M_Bin` | `T_Bin` | reshape through ravel/unravel; induction over the axes reduced one after the other |
| C15, C16 `radial_profile` | `M_Radial` | `T_Radial` | bins as filtered sums; discrete intermediate-value argument |
| C17, C18 Noll index | `M_Zernike` (literal table; binary64 formula) | `T_Zernike` | table by computation over its whole domain, the formula by Flocq error bounds |
| C19–C23 Zernike values | `M_Zernike` (Jacobi polynomial as terminating series) | `T_Zernike` | combinatorial identities, finite differences, Coquelicot integrals for orthonormality, case analysis of the call forms |
| C24–C28, C74, C82 object life cycle, validation, construction | `M_PSF` | `T_PSF`, `T_PSF2`, `T_Ctor`, `T_Ctor2` | invariants by induction over operation histories (failed operations included) |
| C29, C42 isolation of helpers, no accumulation | `M_Heap` | `T_Heap`, `T_Object` | frame/simulation argument over programs on many objects |
| C30–C36, C68 Hanser PSF and OTF | `M_Hanser` | `T_Hanser`, `T_Micro5` | Parseval, triangle inequality, Hermitian symmetry, convolution theorem |
| C84 symmetries with polarisation, C85 scaling, C86 planes | `M_Hanser`, `M_Sheppard` | `T_Symmetry`, `T_Scale` | reflections of the transform with a sign per component; the spec formulas of C77 are homogeneous |
| C93 units, whole objects | `M_PSF`, `M_Micro`, `M_Phase` | `T_Unit` (`S_Unit`, `L_Unit*`) | simulation relation between the two runs, preserved by every setter, constructor and read; numerics by C85 |
| C94 plot keywords | `M_Kwargs` over `M_Display`, `M_Plot`, `M_PsfPlot` | `T_Kwargs` (`S_Kwargs`, `L_Kwargs`) | finite maps with distinct keys; simulation of the keyword-free plots |
| C95 interruption at any step | `M_Steps` (refines `M_PSF`) | `T_Interrupt` (`S_Steps`, `L_Steps*`, `L_Interrupt`) | programs as trees of atomic steps; refinement to `M_PSF`; a simulation between the interrupted and the uninterrupted run; step-wise relations closed under transitivity |
| C96 threads that read | `M_Threads` over `M_Steps` | `T_Threads` (`L_Steps2`, `L_Threads`) | rely/guarantee invariant kept by every step of every thread; lock ranking for deadlock freedom; a decreasing measure for termination |
| C101 interrupted microscopes, C102 threads reading microscopes | `M_MicroSteps` (refines `M_Micro`, over `M_Steps`) | `T_MicroSteps` (`S_MicroSteps`, `L_MicroSteps*`, `L_MicroThreads`) | as C95 and C96, with the steps of model and model_exc embedded and the microscope's two locks ranked above theirs |
| C97 pixels sorted in floats, C98 zrange, C99 normalisation | `M_Float` (beside `M_Radial`, `M_Micro`, `M_Hanser`, `M_PsfPlot`) | `T_Float` (`S_Float`, `L_Float*`) | monotone rounding and representable separators; relative errors (1+e) composed; induction over summation trees |
| C100 limits and shell in floats | `M_Float2` (beside `M_PSF`, `M_Sheppard`) | `T_Float2` (`S_Float2`, `L_Near`, `L_Shell`) | a calculus of relative errors in units of 2^-53; square root of a cancelling difference bounded by √; exact sign symmetry of rounding |
| C87 brightness of the data | `M_Phase` | `T_Exposure` | the iteration is homogeneous: induction on the number of iterations with the factor of the pupil |
| C90 views of one specimen | `M_Phase` | `T_View` | the update commutes with the symmetries of the optics (sums reindexed over the grid); induction on iterations; the whole history of both runs is compared |
| C37–C39, C69 Sheppard | `M_Sheppard` | `T_Sheppard` | algebra on the shell, iff description of non-finite values |
| C40, C41, C43, C44, C70–C72 aberrations | `M_Aberr` on `M_Hanser`, `M_Heap` | `T_Aberr`, `T_Aberr2`, `T_Named` | list reasoning, shift and reflection of the transform, triangle inequality |
| C73, C77 objects show the numbers of their attributes | `M_Engine` (engine of `M_PSF`) | `T_Object`, `T_Object2` | C24 instantiated, then written out as explicit sums |
| C45–C50, C75 `retrieve_phase` | `M_Phase` | `T_Phase`, `T_Phase2` | loop invariant, projection inequality, induction over iterations |
| C51, C52 Zernike fit, partial reconstructions | `M_Phase`; solver = any function meeting the least squares specification | `T_Fit` | normal equations, linearity |
| C53 resized PSFs | `M_Phase` on `M_Heap` | `T_Fit2` | C01–C03 and C27 |
| C54–C57, C61 microscopes: construction, binning, normalisation, caches | `M_Micro` | `T_Micro*` | state machine reasoning, C14, C35 |
| C58, C59 pinhole, confocal | `M_Micro` | `T_Confocal*` | lattice points of a disk, convolution |
| C60, C62 SIM pattern, Wiener filter | `M_Micro` | `T_SIM*`, `T_Wiener` | trigonometry, positivity, C06 |
| C92 SIM orientations as lines | `M_Micro` | `T_SIM3` | sums in another order (broadcasting included), half turns of the beams; simulation of the two object runs |
| C76 Apotome | `M_Micro` | `T_Apotome*` | C15, C16, C35 |
| C63 `repr` | `M_Repr` | `T_Repr*` | read-back of the printed keywords through the constructors |
| C64, C65, C78, C79 `display.py` | `M_Display` | `T_Display*` | parity arithmetic, geometry of the arcs |
| C80, C81 plots of microscopes and PSF objects | `M_Plot`, `M_PsfPlot` | `T_Plot`, `T_PsfPlot` | composition of C05, C35, C78 |
| C83 plots of phase retrieval results | `M_PhasePlot` | `T_PhasePlot` | composition of C45, C47, C51, C52; the table of names by computation |
| C103 life of a result | `M_Result` over `M_Phase` | `T_Result` (`S_Result`) | frame conditions by induction over histories; what a generated PSF depends on from the invariant of C24 |
| C104 caller writes | `M_Write` over `M_Heap` | `T_Write` (`S_Write`) | simulation as C29 plus an invariant on who holds which reference: each call leaves a slot as it was, empty, or with an array made since |
| C105 rounded sizes | `M_Float3` | `T_Float3` (`S_Float3`) | relative errors in units of 2^-53 (`L_Near`) carried through the formulas; a relative error below the distance to the next tie cannot move rint (`L_Rint`); the cancelling axial width separately (`L_Axial`) |
| C106 convergence | `M_Phase` | `T_Converge` (`S_Converge`) | the update is an orthogonal projection (`L_Converge`): Pythagoras with the old pupil, with the origin and with multiples of the first pupil; so light grows by what the pupil moves, and an iteration that does not meet the pupil tolerance t multiplies it by 1 + t (`L_Converge2`, `L_Converge3`) |
| C107 plane counts that differ | `M_Phase` | `T_OnePlane` (`S_OnePlane`) | one update with broadcast data or model is the update for the repeated or merged data (`L_OnePlane`); induction on the iterations, both loops stop at the same place (`L_OnePlane2`, `L_OnePlane3`) |
| C108 microscopes with references | `M_MicroHeap` over `M_Heap` | `T_MicroHeap` (`S_MicroHeap`) | simulation of every method of the four microscopes against the value-level machine `M_Micro` (`L_MicroHeap*`), with an invariant on which microscope holds which array and PSF object |
| C109 lateral cut-off, C110 oversampling in frequency space | `M_Micro`, `M_Hanser` | `T_Lateral`, `T_Pixel` (`S_Pixel`, `L_Lateral`, `L_Pixel`) | an image below a cut-off is a finite sum of exponentials, which products, shifts and sampling keep; the pixel formula one axis at a time: offsets and aliases exchanged, sums over multiples of f |
| C111 lateral cut-off and light of SheppardPSF | `M_Sheppard`, `M_Micro` | `T_Lateral2` (`S_Shell`, `L_ShellCap`) | valid points satisfy \|k\| < ni/wl + d and kz > cone + d, so lateral^2 < (na/wl)^2 + 2 d (ni/wl - cone); the odd-size shift of `easy_ifft` is a phase ramp that the intensity does not see; then as C109; the light by unitarity of the transform |
| C112 OTFi of SheppardPSF as autocorrelation; axial cut-off, missing cone | `M_Sheppard`, `M_Engine` | `T_Auto` (`S_Auto`, `L_Auto3`) | the triple product of kernels sums to a delta on each axis (with the phase left by `easy_ifft`'s shift when the length is odd), so fft(\|ifft\|^2) is the cyclic autocorrelation; nonzero amplitudes have cone < kz and \|\|k\| - ni/wl\| < d, so a pair whose distance has axial part s gives \|s\| < ni/wl + d - cone, and on the axis z^2 - z'^2 = \|k\|^2 - \|k'\|^2 gives \|s\| cone < 2 d (ni/wl + d); with both caps a distance is either that small or above 2 cone, and wrapping adds multiples of 1/zres |
| C113 axial frequencies of microscopes with a Sheppard model | `M_Sheppard`, `M_Engine`, `M_Micro`, `M_Bin` | `T_AxialBand`, `T_AxialBand2`, `T_MissingCone` (`S_AxialBand`, `L_AxialBand`) | every pixel of \|ifft\|^2, as a function of the plane, is a finite sum of exponentials whose frequencies are distances of lit planes; such sums are closed under lateral binning, the pinhole's lateral weights and scaling, and multiply to sums of the frequencies; the transform along the axis of an exponential is a delta. Light: the focus pixel is the brightest (C69), the total light is positive (C111), so the product with the excitation is positive there. Missing cone: the pixel's transfer function vanishes at every alias of lateral frequency 0 (C110), so the model's missing cone (C112) is the microscope's |
| C66 `labview` | `M_Labview` | `T_Labview` | composition of C13 and C45 |
| C67 `_version.py` | `M_Version` | `T_Version*` | induction on strings; longest-match argument for the regular expression |
| C88 commands, C89 version file | `M_Command` | `T_Command` | `_version.py` with the outside world as a function from command to outcome, and the list of commands run; induction on names and lines |

## 4. Trusted base

* The Coq 8.16.1 kernel (with its VM for `vm_compute`).
* Axioms, all from the standard library (through `Reals`, Coquelicot and Flocq), as listed by the
  `Print Assumptions` under each theorem:
  `ClassicalDedekindReals.sig_not_dec`, `ClassicalDedekindReals.sig_forall_dec`,
  `FunctionalExtensionality.functional_extensionality_dep`, `Classical_Prop.classic`.
  Theorems about integers, strings and the object machine use none of them ("Closed under the global context")
  or a subset.
* That numpy, scipy and skimage meet the specification used: DFT (`numpy.fft`), `np.pad`, slicing, `argmax`,
  `bincount`, `eval_jacobi` (scipy's documented hypergeometric formula), `next_fast_len` (a parameter returning some
  size at least n), `fftconvolve`. `unwrap_phase` and `lstsq` are *hypotheses* of the theorems that need them
  (`unwraps`: changes each phase by a multiple of 2π; `least_squares`: attains the minimum).
* That exact arithmetic stands for floating point, except in C17/C18, C97–C100 and C105 (where what is assumed of the hardware and of
  numpy is: correctly rounded + - * / sqrt, `hypot` within one ulp, `pow(x, 2)` monotone and within one ulp, sums along some binary tree).
* My reading of the code: the correspondence between `M_*.v` and /repo is by inspection.

## 5. Not modelled, or modelled under a restriction

* `__main__` blocks, `figures.py`, notebooks, `setup.py`, `versioneer.py` (the build-time tool), logging and warnings.
* `np.int` in `radial_profile` exists only in numpy < 1.24; such a numpy is assumed.
* Non-finite attribute values (NaN, infinities) in the numerical engine: theorems about numbers assume finite
  attributes; the state machine itself handles them.
* The engine's transforms are total; numpy raises for zero-length axes (excluded by hypotheses where it matters).
* Phase retrieval on 1×1 images (a `squeeze` drops the axes) is excluded.
* `radial_profile` of one-dimensional data with a centre of several numbers (numpy broadcasts it).
* `_disk_kernel` with a negative radius is not modelled; the Zernike fit
  assumes `na > 0`.
* Plotting: what matplotlib does with figures, norms and the keywords it receives; ticks; the width of `plot_psf` for
  `na > ni` (NaN converted to int); panels of a PSF that is not finite. `imshow`'s placement of pixels is a stated
  specification (`S_Display.v`).
* `repr`: text below the level of keyword=text; reading back printed sequences is a parameter (`rd_repr`, `rd_str`, `rd_orient`).
* `zernike` called with float-valued (n, m).
* `labview`: nested lists of integers only.
* `_version.py`: verbose output, characters above code point 255 (undecodable in `M_Command`), the `HANDLERS` registry.
* A `zrange` attribute a user adds to a `SheppardPSF`; subclassing; pickling.
* Aliasing among microscopes (C108): deep copies of microscopes, writes into `orientations` or `psf_params`; a z range array given as keyword is copied. In `M_Micro` and elsewhere microscopes are values.
* Interruption and threads (C95, C96, C101, C102): the atomic steps are those of `M_Steps` and `M_MicroSteps` (attribute reads and writes, deletions, stores, locks);
  a computation after `_gen_kr` is one step, scalar `zrange` values become 1-d in the same step as they are stored, and threads
  that assign are only shown to be unsafe. Displays and phase retrieval are not stepped through, and the microscopes of C102 share no PSF object.

## 6. Findings (proved of the model, with witnesses)

1. `easy_ifft(easy_fft(x))` is not `x` when a transformed axis is odd (C06); consequences: SIM patterns are centred one
   pixel off on odd grids (C60), the Wiener filter reads the neighbour of the zero frequency there (C62).
2. `prep_data_for_PR` does not clip the background-subtracted data in its cropping branch (C13).
3. `degrees2noll` lacks the check |m| <= n and returns other modes' indices (C18).
4. The limits checked for `res` and `zres` are not invariants: changing `wl`, `na` or `ni` later can break them (C26);
   a negative `res` is accepted (C82).
5. A failing `apply_pupil` clears the caches (C25).
6. Copies share the z range array; an in-place write by the caller changes both, and stale arrays stay (C29). Cached arrays
   are handed out writable and are believed: a write into `PSFi` changes a later first read of `OTFi`, but not an earlier one (C104).
7. `retrieve_phase` changes the caller's `params` dictionary (C49) and, unless it ends on a tolerance, the result's pupil
   is one iteration ahead of the returned model (C48).
8. Coherent SIM without orientations raises `UnboundLocalError`; `dc_suppress` is ignored when `coherent` (C60).
9. Microscope caches do not notice assignments made on `.model` (C57).
10. `psf_plot`/`otf_plot`: titles of the YZ and XZ panels exchanged (C78); extents run centre to centre, so pixels are drawn
    slightly off and, for even sizes, the origin is almost one pixel low (C64, C78); the circle of radius 2na/wl overstates
    the support when na > ni (C79).
11. Microscope plots use `pixel_size`, not `zres`, along the axial axis (C80); PSF plots use `zres` even when an explicit
    `zrange` has another spacing, and `[-inf, z, inf]` passes the spacing check (C81); an OTF with a NaN is shown as a flat
    image of `eps` (C80).
12. `repr` of an oversampled microscope rebuilds one with the size multiplied twice; strings among the extra keywords are
    printed without quotes; the SIM subclasses' `repr` cannot be evaluated; attributes changed after construction are not
    reflected in a microscope's `repr` (C63).
13. An untagged version shows the first seven digits of HEAD rather than the abbreviation `git describe` prints (C67).
14. `SheppardPSF`: dual vectorial models have non-finite values where the sine condition or the polar angle is undefined, and
    then every element of PSFa is (C38); a single-sample axis raises IndexError (C39).
15. An off-grid centre can leave empty (NaN) bins in `radial_profile` (C16).
16. `plot_named_coefs` of a decomposition with exactly five coefficients draws eleven equal bars, all with the height of the fifth;
    with any other number below 15 it fails (C83).
17. `retrieve_phase` compares the absolute mean squared error with `mse_tol`, so a dim recording of the same bead stops after two
    iterations (C87).
18. `easy_fft(x, axes=1)` raises TypeError although numpy's shifts accept an integer; an axis of odd length listed twice is not
    transformed as by two calls (C91).
19. `otf_plot` documents a parameter `mip` it does not have (it goes to `imshow`); `gamma`, `vmin`, `vmax` are silently ignored
    when the caller passes `norm` (C94).
20. An assignment to wl, na, ni or size that is interrupted between storing the value and clearing the arrays leaves stale arrays, and
    assigning the same value again does not help because the setter skips equal values (C95); `apply_pupil` interrupted while it
    replaces a pupil can leave arrays that disagree about the pupil (C95).
21. A thread that assigns a parameter while another one is computing leaves the array of the old parameters in the cache, with or without
    the lock of `cached_property` (C96). Threads that only read are safe.
22. `retrieve_phase` refuses data whose number of planes differs from the number of z positions (C49) unless one of the two numbers
    is 1; then it runs silently, treating the one plane as recorded at every position, or averaging all planes' amplitudes (C107).
23. A `WidefieldMicroscope`'s `model_psf` is the writable array `PSFi` of its PSF object (the other microscopes return a new one): an
    in-place write changes the model, every microscope that uses it, and a `PSF` first read afterwards, but no `PSF` already read. Writes
    into `PSF` are believed by a first read of `OTF` and by nothing else (C108).

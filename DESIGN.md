# Formal model of equinor/gaussianfft in Rocq (Coq 8.16.1)

Source modelled: `/repo` (C++ core in `src/`, Python package in `gaussianfft/`, the build helper `utils.py`).
Properties: `properties.jsonl` (C01, C02, ...).  Status of each: `MANIFEST.json` (52 proved, 46 partial).
Tests of the theorems against wrong programs: `seeded/LOG.jsonl`.

## 1. Shape of the model

The model is a set of small total Gallina functions, one per C++ or Python function, each
with a comment naming the file and lines it models and what was simplified.

* **Outcomes.**  A C++ call can return, throw, or run into undefined behaviour.
  `outcome A := Ok a | Throw e | UB u | NoFuel`.  Undefined behaviour (out of range
  float-to-integer conversion, out-of-bounds array access, null pointer, `toupper` of a negative char)
  is its own outcome and is never assumed away.
  `NoFuel` marks the only unbounded loops of the code (the rejection loops of the
  normal sampler), which are given fuel.
* **Arithmetic.**  All numeric code is written once, over a record `Arith` of the
  operations the C++ code uses (`+ - * /`, comparisons, `sqrt exp log sin cos pow`,
  decimal literals, integer conversion, truncation, reinterpretation of a 64-bit
  pattern); `Lib` adds the Fourier transforms.  Two instances are used: `Rarith` (real numbers: exact arithmetic) and
  `Farith` (IEEE binary64 from Flocq with one NaN, with the libm functions as arbitrary parameters).
  Theorems about *histories, seeds, sizes, memory* hold for every instance; theorems
  about *covariances of fields* are about `Rarith`; theorems about bit-exactness and about rounding (C74-C77) are about `Farith`.
* **Integers.**  `size_t` is `Z` modulo 2^64 in size computations (`M_Padding`, `M_FftSize`, `M_Large`), `int`
  conversions are checked.  Cell indices are natural numbers (`M_Grid`, `M_Fft`); `M_Large` has them modulo 2^64, and
  C94 says when the two agree.  A padded size of 2^31 or more, which `static_cast<int>` would wrap, stops the model
  with the outcome `TooLarge`.
* **FFTW** is modelled by its documented meaning: `r2c` is the half-spectrum of the
  defining DFT sum, `c2r` the defining inverse sum of the Hermitian completion of a
  half-spectrum, both unnormalised, on the flat row-major arrays the code passes.
* **Probability.**  Gaussian noise is not modelled as a measure.  Covariance theorems
  quantify over an arbitrary linear expectation functional under which the
  noise values are uncorrelated with unit variance, and state the second moments of the output.
* **Threads.**  Serialised threads are interleavings of call lists; unserialised ones are interleavings of single loads and
  stores on the shared generator (`M_Race`; `M_Race3` for calls of any dimension).
* **Crashes.**  The disk is a map from names to texts; a crash in a write leaves any prefix (`M_SeedFile`).

## 2. Files

| file | contents |
|---|---|
| `Base.v` | outcomes, machine integers, array reads/writes |
| `Arith.v` | the records of arithmetic operations |
| `M_*.v` | the model (no proofs) |
| `RealArith.v`, `FloatArith.v` | the two instances |
| `S_*.v` | small independent specifications used in theorem statements |
| `P_*.v` | proofs |
| `Properties_*.v` | the property theorems only, each `exact lemma`, with `Print Assumptions`, and examples that meet the hypotheses |

| model file | source |
|---|---|
| `M_Variogram` | `src/nrlib/variogram/variogram.{hpp,cpp}`, `variogramtypes.{hpp,cpp}`, `CreateVariogram` of `src/gaussfft.cpp`, `Uppercase` |
| `M_Points` | the functions of two points and the semivariograms of `variogram.hpp` |
| `M_Padding` | padding rules of `gaussianfield.cpp:43-88`, `simulation_size` |
| `M_FftSize` | `FindNewSizeWithPadding`, `fft.cpp:50-82` |
| `M_Grid` | index arithmetic and element access of `grid2d.hpp`, `grid.hpp` |
| `M_CovGrid` | `fftcovgrid.{hpp,cpp}` |
| `M_Fft` | `fft.hpp`, `fftgrid2d`, `fftgrid3d` |
| `M_Dsfmt`, `M_DsfmtBulk` | `dSFMT.{h,cpp}`, both the portable and the SSE2 recursion |
| `M_Random` | `random.{hpp,cpp}`, `randomgenerator.{hpp,cpp}` |
| `M_SeedFile` | the seed file functions of `random.cpp` |
| `M_Field`, `M_Multi` | `Simulate1D/2D/3DGaussianField`, all overloads with a variogram |
| `M_Api` | `src/gaussfft.cpp`, `src/gaussfftinterface.cpp`: the calls of the module and its state |
| `M_Bind`, `M_Package` | argument binding, `gaussianfft/__init__.py`, `.pyi` stubs (the stubs in `S_Bind`) |
| `M_Race`, `M_Race3` | two or more threads inside `dsfmt_genrand_uint32`; any number of calls of any dimension drawing words from the shared generator |
| `M_Alloc` | the simulate calls with their allocations, one of which fails |
| `M_Fork` | several processes, each with a copy of the static random state |
| `M_Resource` | `util/resource_extrapolator.py`: the calls it makes, its errors and its fitted line |
| `M_Util` | `gaussianfft/util/empirical_variogram.py`, `empirical_variogram2.py`, the padding analyzer |
| `M_Sources` | `collect_sources` of `utils.py` |
| `M_Armpl` | `build-packages/arm-performance-libraries/hatch_build.py`: one build, with its steps on the disk |

## 3. Plan per property

| id | model | proof |
|---|---|---|
| C01 | `M_Api`: module state (initialised flag, start seed, generator), operations, clock oracle | state after `seed s` is a function of `s`; induction over the call list |
| C02 | as C01 | invariant over histories: the state records the last seed |
| C03 | as C01, `Random::Initialize()` with arbitrary clock | state after auto-init = state after `seed S` |
| C04 | as C01 + `M_Dsfmt` init | initial state depends on `seed mod 2^32` only |
| C05 | `M_Dsfmt` (bit-exact, on `N`/`Z` words) | output stream determines the state (the kernel of the output map is trivial), the update is injective, the seed is readable in the initial state |
| C06 | `M_Dsfmt`, `Farith` for the subtraction | invariant: the 12 high bits of all words are 0x3FF; Flocq: exact subtraction |
| C07 | both variants of `do_recursion` | bit-level equality for all operands; streams equal by induction |
| C08 | `M_Dsfmt` | explicit inverse of the update; parity computation for every seed |
| C09 | `M_Api` | each 1D/2D call advances the generator by one draw, independent of its arguments |
| C10 | `M_Api` | state unchanged by query operations; erasing them from a program |
| C11 | `M_Api` + schedules (interleavings of call lists); word-level interleaving of a draw | permutation/fold argument; explicit bad interleaving |
| C12 | `M_Norm01` | case analysis, bounds; NaN witness (u1=u2=1/2) in `Farith` |
| C13 | `g`, branch densities, tail branch (`S_NormPlane`) | piecewise algebra, rational bounds for the envelope; polar integration of the Gaussian for the tail |
| C14 | noise loops of `M_Field` | loop = permutation of the draws |
| C15, C16 | `M_Field`, `M_Api`, `M_FftGrid` | unfolding of the copy-out loops |
| C17, C18 | `M_Padding` | arithmetic of truncation; witness for the mismatch |
| C19, C23 | `M_FftSize`: the search loops, float rounding of the size, oracle-free | fold over candidate lists = minimum; witnesses at 1, 2^24+1 and large sizes |
| C20 | all array accesses go through checked reads/writes | outcome is never `UB OutOfBounds` under the stated size bounds; witness at 2^24+1 |
| C21, C22 | `M_Api`, `M_Field` | equality of the arguments passed on |
| C24-C26 | `M_Field` at `Rarith` | DFT theory: orthogonality of characters, convolution, Hermitian completion; second moments |
| C27 | as C24 + convexity | spectrum of a convex even sequence is non-negative (second differences) |
| C28 | as C27 + C17 | wrapped distance exceeds the range |
| C29 | as C24-26 | Parseval-type identity and clipping inequality |
| C30 | `M_Field` at `Rarith` | linearity of each stage |
| C31, C32 | `M_CovGrid`: octant loops as explicit write lists | coverage of index ranges; symmetry; witness for the half-size row |
| C33 | `M_Padding` + `Distance` | Cauchy-Schwarz; witness for dip |
| C34, C35 | `CreateVariogram`, `Uppercase` | strings; witness for zero range |
| C36-C39 | `M_Variogram` at `Rarith` | sum of squares form of the distance, monotonicity of each correlation function, interval arithmetic |
| C40 | `M_Variogram` at `Farith` | sign symmetry of IEEE operations |
| C41 | `M_CovGrid` at `Rarith` | power laws |
| C42 | setters as operations on the object record | invariant over operation lists |
| C43 | `M_Fft`, `M_FftGrid` at `Rarith` | DFT inversion, Parseval |
| C44 | `M_Grid` | division with remainder |
| C45 | `fill_array` loops of `M_Dsfmt` | both equal the unbounded recurrence |
| C46 | `M_Api` with a count of live heap generators | witness and exact count |
| C47 | the list of exported names and of defined names | witness |
| C48 | `M_Field`, `M_Padding`, `M_CovGrid` at `Rarith` | homogeneity of the normalised distance; every stage sees ratios only |
| C49 | `M_Field` at `Rarith` | spectrum of a constant table is one non-zero entry; inverse transform is constant |
| C50 | `M_Field` at `Rarith` | the table is the unit impulse, all filter entries are 1, the transforms cancel (C43) |
| C51-C54 | `M_Bind`: pybind11's argument binding, casters, the wrapper `__init__.py`; `S_Bind`: the type stubs as data | case analysis on signatures; witnesses for the stub overloads and for None |
| C55-C58 | `M_Multi`: the C++ overloads with n fields, caller's generator, short 2D form | loop invariants over grids reused between fields; equality with `M_Field` |
| C59-C64 | `M_Util`: `util/empirical_variogram*.py`, in exact arithmetic | the estimate as a double sum over pairs; expectation functional; witnesses |
| C65, C66 | `M_Util`: the padding analyzer | running means; witnesses for seed 0 and for the axis |
| C67 | `M_Points`: covariance, semivariogram, functions of two points | algebra on C36, after any setter history (C42) |
| C68-C70 | `M_SeedFile`: `Random::Initialize(filename)`, `WriteSeedToFile`, decimal streams, a disk with crash points | print/read are inverse; case analysis on the state of the file |
| C71-C73 | `M_Sources`: `collect_sources` of `utils.py` | worklist invariants; measure for the end; witnesses |
| C74-C77 | `M_Variogram` at `Farith` | Flocq error bounds through each operation; witnesses by evaluation with proved bounds on sin, cos, exp |
| C78-C80 | `M_Api`, `M_Random`, `M_Dsfmt` | a 1D/2D field depends on one 32-bit draw only; colliding seeds found by search and checked by evaluation |
| C81 | `M_Field`, `M_Padding` at `Rarith` | the mean square of a field is the lag-0 entry of the inverse transform of the rectified spectrum (C27); convex tables need no rectification; witness with a negative entry |
| C82 | `M_Resource` at any `Lib` / `Rarith` | list induction over the timed calls; normal equations of the fitted line |
| C83 | `M_Alloc`: the simulate calls with every allocation in its place | composition of runs that need n allocations, one of which may change the stream |
| C84 | `M_Fork`: several processes, fork, spawn | induction over the events; the clock does not matter once the generator is initialised |
| C85 | `M_CovGrid`, `M_Field`, `M_Api` at `Farith` next to `Rarith`; `S_FieldF`, `S_FieldH` | Euclidean distances through table, transform, clipping, complex root (square-root Lipschitz bound), filtering and scaling; Parseval; size of the drawn normals |
| C86, C87 | `M_Armpl`: the build hook `hatch_build.py`, its state files and every step at which it can fail or be killed | triples with a crash condition; promise of each recorded state as the invariant; symbolic execution for the counterexamples |
| C88-C90 | `M_Variogram` at any `Arith` / `Rarith` | case analysis on the name; the quadratic form of the distance; monotone correlation functions |
| C91 | `M_Padding` at `Farith` | subtracting a whole number from a larger double is exact; rounding and truncation are monotone |
| C92, C93 | `M_Variogram` at `Rarith` / `Farith`, `M_Padding` at any `Arith` | trigonometric identities; sign symmetry of IEEE operations up to the sign of zero |
| C94 | `M_Large`: the arrays of a call with wrapping 64-bit sizes and indices | bounds on products of sizes; witness of 2^65 bytes |
| C95 | `M_CovGrid` at `Farith` against `Rarith` | relative errors of both calls of pow through exp and ln; grid of doubles below 1 and underflow for the two refutations |
| C96 | `M_Api` at `Farith` | every operation on lengths commutes exactly with a power of two while exponents stay in range (`rel`, followed through tables, padding and correlations); a truncated quotient for the refutation |
| C97 | `M_Padding`, `M_Api` at `Farith` | bounds on each rounded operation: the truncated values fit an int, or cannot; every simulation computes the default padding first |
| C98 | `M_Padding`, `M_Variogram`, `M_Api` at `Farith` | case analysis of IEEE-754 division, multiplication and comparison on NaN, zero and infinity |

No property is classed as inexpressible.

## 4. Partial properties: what is missing, what is false

A property that the code does not have keeps its full statement in `properties.jsonl`. The witness is a theorem with the suffix
`_refuted`, the part that does hold is proved beside it.

* **C12** Normal draws are finite. False as stated: two uniform numbers exactly 1/2 in a row in the tail branch give NaN. Proved for all other streams, in doubles; missing: that the generator never gives that pair.
* **C18** simulation_size and simulate agree on the dimension. False as stated: with ny>1 and dy left out or negative the two functions disagree (refuted). Proved: they agree exactly when no counted direction has a negative or missing spacing.
* **C19** The FFT grid is the best 7-smooth size. Proved for all sizes up to 2^52 for which the computed logarithms are right to within one upwards, which is proved for sizes up to 2^18 (single precision) / 2^24 (double). Refuted: request 1 with an even size; request 2^24+1; request 2^22+1 with single precision logarithms.
* **C20** Simulations never read or write outside their arrays. False as stated: negative spacing, sizes where the FFT size search answers too small a number, and 3D grids whose number of bytes exceeds 64 bits (C94_wrap_refuted) read or write out of bounds. Proved when every requested size has room for its cells and the logarithms are good; C20_in_bounds_partial counts cells without wrapping, which is right below 2^60 cells (C94_fits_partial). C20_doubles_partial: in double precision, positive ranges and cell sizes are enough for that room.
* **C23** Grid-size search stays within defined behaviour. False as stated: requests 0 and 32769. Proved up to 8192 (32768 with exact logarithms).
* **C28** 1D spherical fields have exactly the spherical covariance. Proved when x is an axis of the variogram or the main range is the largest; refuted otherwise: 1D padding looks at the main range only.
* **C32** The covariance table is symmetric. True in 1D (real and double arithmetic), in 2D/3D off the half-size rows, and everywhere without rotation; false on the half-size row of an even grid for a rotated variogram (witness).
* **C33** Wrapped images are further than one range away. Proved under conditions on ranges and angles (3D: no dip); refuted without them.
* **C34** Variogram type names. All ASCII names as claimed. A name with a non-ASCII byte is undefined behaviour (toupper on a negative char) instead of spherical. The functions are pairwise different unless the power of the general exponential is 1 or 2.
* **C35** Default ranges. Negative ranges mean the main range; zero, documented to do so, does not: corr at lag 0 becomes 0 (NaN distance) for a spherical variogram in doubles. In fact every correlation of a spherical variogram is then 0, at every lag in one, two and three dimensions (C35_zero_everywhere_refuted). For exponential, gaussian and Matern variograms it is NaN everywhere (C35_zero_nan_refuted).
* **C38** Azimuth and dip rotate the variogram. Directions, ranges and norm proved. Adding 180 degrees to the azimuth changes nothing in 2D or without dip; it changes corr in 3D with dip (witness).
* **C41** Smoothing kernel. Never increases, lag zero, symmetry: proved. Any angles: each parameter is the factor at one reach along its axis, where the reach is the largest projection of the three axes up to 0.001 of the other ranges, because the code uses 3.14/2 for a quarter turn. Without rotation: exactly the parameter along x; along y off by a power below 1.000001 (witness).
* **C46** Simulating does not accumulate memory. False of the code: each 1D/2D field leaves one generator object behind. Proved: the exact number lost after any program.
* **C47** The package exports what it advertises. False: SizeTVector and DoubleVector are listed but not defined; every other name works.
* **C52** The overloads in the type stubs mean what they say. False of the code: simulate(v, nx, ny, nz, dx, dy, dz), the two shorter overloads of advanced.simulate, seed(seed=...) and corr(dx=...) (refuted). Proved for all other overloads.
* **C53** Unsuitable arguments raise an exception. False of the code: None in the place of the variogram is bound as a null pointer and dereferenced. Proved for all other calls.
* **C55** Asking for n fields at once equals asking n times. Holds in 3D and in 2D with a generator supplied by the caller; refuted in 2D without one (one seed is drawn for all fields).
* **C58** The 1D overload fills the vector it is given. Holds for vectors up to the padded size; a longer one is filled by reading out of bounds.
* **C60** An estimate belongs to the distance it is reported at. False: the value reported at (k+1)*dx has the correlation at k*dx as its mean (the 'midpoints' are the upper ends of the bins); for exponential variograms it is always too large. The first value is 1 whatever the fields.
* **C61** The dummy simulation reproduces the variogram. The estimates are the average correlations of the bins. The agreement with true_variogram is false: that one is evaluated at the upper ends of the bins.
* **C63** Estimation works for every grid shape. True for grids with more than one row in y, or one row in z (C59_estimate). False with one row in y and several in z.
* **C65** The padding analyzer measures the effect of padding. The deviations are from the first m simulations, m the last number up to nmax that ends in 1 (591 of the default 600). Zero mean is false: the shift of C60 remains. One dimension, resolution equal to the spacing (the defaults).
* **C66** The padding analyzer uses the seed given and the right distances. False for the seed 0, which is replaced by 12313, and for the distances.
* **C68** A failed start from a seed file leaves the generator as it was. The stream is kept; the seed reported becomes 0 or 2^64-1 when the file is read but holds no number (refuted).
* **C70** A crash while the seed file is written does not lose the seed. False as stated: the file is emptied first, so a crash (or a full disk, without an exception) can leave an empty file, or a seed cut short. What can be left is characterised.
* **C71** The build collects exactly the source files needed. Holds except for headers given as start files, whose source files are not collected. The regular expressions and the preprocessor are not modelled: each file has a list of names.
* **C73** Ignored folders are the only ones ignored. False as stated: the test compares text prefixes, so ignoring 'sr' drops 'src'.
* **C74** In double precision a correlation is a number between 0 and 1. False as stated: Matern 5/2 with range 1 gives 1 + 2^-52 at lag 3.3e-9 (C74_above_one_refuted) and NaN at lag 2^511 (C74_nan_refuted). Proved: the spherical type for every object and all lags; the other types without a polynomial factor for 1D lags and ranges between 2^-400 and 2^400, and for 1D, 2D and 3D lags with any angles when no range is more than 2^18 times another; all types, Matern too, finite and in [0,1] up to k^2*2^-40 (k the ratio of the ranges). Missing: very anisotropic rotated variograms, where the distance can be a NaN (C77).
* **C75** In double precision the correlation at lag zero is exactly 1. Proved for ranges between 2^-400 and 2^400 and finite angles; false for range 2^-600, whose square underflows (C75_tiny_range_refuted). Of the C library it asks exp(0) = 1, pow(0, p) = 0, |sin|, |cos| <= 1.
* **C76** In double precision the correlation never grows with the lag. False for the spherical type (C76_spherical_refuted) and Matern 5/2 (C76_matern_refuted). Proved for constant, exponential, Gaussian and general exponential in 1D, with libm exp and pow that never decrease; for all types, in 1D, 2D and 3D along any ray, up to the accuracy of C77 (C76_nearly_partial).
* **C77** Rounding does not change correlations noticeably. False as stated: two refuted witnesses (rotated, very anisotropic variogram). Proved, given exp, sin, cos and pow that round correctly and ranges and lags between 2^-100 and 2^100: without rotation within 2^-49 (types that do not call pow) or 2^-47 (all types); with any azimuth and dip within k^2*2^-40 when no range is more than k <= 2^18 times another. Missing: larger anisotropy with rotation, where it is false from k = 3.3e8 on.
* **C78** Different seeds give different fields. False in one and two dimensions: 41243 and 69349 give the same field for every call (C78_fields_refuted). A 1D or 2D call has at most 2^32 results, whatever the history (C78_at_most_2_32_fields). The uniform streams do differ (C05); nothing is proved about 3D fields.
* **C79** Calling simulate again gives a new field. False in one and two dimensions: after seed(140136564) the sixth and the seventh field are the same, for every call. Nothing is proved about 3D fields.
* **C80** Automatic seeds follow the clock. The warning about the same second is proved. Different seconds can give the same results (two seconds of 21 September 2026), and seed() does not report the time but a number drawn from a generator started with it.
* **C81** Fields have variance one. Proved in 1D for the convex variograms; refuted for a 1D gaussian variogram at azimuth 90, whose perpendicular range the default padding ignores (variance at least 1.047). 2D and 3D: C29 gives the excess. Exact arithmetic.
* **C83** Running out of memory is survivable. False as stated: fftw_malloc's result is used without a test, so every call can write through a null pointer (C83_exception_refuted); an allocation that fails after the draws leaves the stream advanced (C83_drawn_in_vain, C83_retry_refuted). Proved: in every other case an exception is raised and the stream is where it was or where the successful call leaves it, nowhere in between. FFTW's own working memory is not modelled.
* **C84** Worker processes get their own fields. Isolation is proved. The second sentence is false: a forked process continues its parent's stream and gets the same fields from the same calls (C84_forked_refuted).
* **C85** Rounding does not noticeably change simulated fields. Only the default smoothing (off). Assumed: exp, sin, cos, pow are correctly rounded to within the stated error, the transforms have relative error eps >= 2^-53, good logarithms in the size search and reported sizes of at most 2^25 (2D) or 2^16 (3D) cells a direction (C85_fields; no such bound in 1D), and the generator never gives exactly one half twice in a row (C12). The C85_noise theorems hold for any smoothing and any tables that are near each other.
* **C86** A build of the Arm package has packaged the library asked for. False as stated: the state file does not record the version, so after a finished build a build of another version returns at once with the old library (C86_version_refuted); a build killed during the installation leaves a library in part, which the next build takes for whole (C86_interrupted_refuted). Proved: one version, and no script or library left in part.
* **C87** A failed or interrupted build of the Arm package can be repeated. False as stated: a connection that breaks leaves an empty archive that is never replaced; no later build of that version for that platform returns. Proved when no archive, script or library was left in part.
* **C89** The azimuth is 90 minus the compass azimuth. The correlation part is proved in exact arithmetic (angles in radians; the degree constant of the code is within 1e-20 of pi/180). False for simulation_size: azimuth 0 is treated apart, so the mirrored problem gets another size.
* **C94** Very large grids are computed or refused. False as stated: a 3D grid whose number of bytes is a multiple of 2^64 (4 x 2^30 x 2^30 cells) is asked for as 0 bytes and then filled. Proved for padded sizes up to 2^18 in each direction, for all 1D and 2D calls, and in 3D up to 2^60 cells.
* **C95** Smoothing does not depend on the unit of length. False for very short and very long ranges (refuted): the base s^(1/range^2) underflows to 0 for range^2 / -ln s below about 1/760, so the field becomes white noise, and rounds to 1 above 2^56, so there is no smoothing at all. Proved in between (spread from 1/650 to 2^48) for unrotated variograms, with error (1 + spread) * 2^-47 per smoothed axis. Missing: rotated variograms.
* **C96** Results in double precision do not depend on the unit of length. False as stated: C96_kilometres_refuted shows a change of unit by 0.001 changing simulation_size from 16 to 15, because the quotient range/spacing is truncated. Proved bit for bit for factors that are powers of two, without smoothing.
* **C97** Sizes and simulations always have an answer. False as stated: a main range of 2^31 cells or more, or 2^32 or more cells in x with short ranges, converts a double to int out of range, which is undefined; the default padding is computed even when the padding is given. Proved: simulation_size returns for up to 2^30 cells and ranges up to 2^27 cells a direction (C97_answers_partial), and simulations return when no direction can need more than B < 2^29 nodes and the size search has good logarithms up to B (C97_fields_partial). The same is shown for the perpendicular range in 2D and 3D and the depth range in 3D (C97_other_ranges_refuted), and for 2^32 or more cells in y or z (C97_other_cells_refuted).
* **C98** Lengths that make no sense are refused. False: variogram() takes every number; simulation_size and all simulations convert a NaN or infinite quotient to int (undefined) for every NaN or infinite main range, for such a depth range in 3D, for an infinite perpendicular range (or a NaN one with azimuth 0) in 2D and 3D, and for every zero or NaN cell size in a direction the call counts; a spherical correlation of a NaN lag is 0, a constant one 1, an exponential, gaussian or Matern one NaN.

## 5. Simplifications

* Sizes whose products reach 2^31 cells: a request that exceeds the size of an allocation throws `TooLarge`; running out of memory
  is modelled in `M_Alloc` only.
* `assert` is off (release builds define `NDEBUG`).
* `Rarith`: division by zero, square roots and logarithms of negative numbers have Coq's total values, so theorems that would
  depend on them carry hypotheses that exclude them (non-zero ranges and spacings).
* `std::sqrt(std::complex)` treats a zero imaginary part separately, as glibc's `csqrt` does; the filter entries always have one.
* `M_Race`: the test of the index and the refilling of the table are one step; the race is on the index and the words.
* `M_Bind` knows None, bool, int, float, str, variograms and Enum members; numpy scalars and objects with `__index__` are outside.
* `M_Util` is in exact arithmetic; numpy, scipy and `random.sample` are represented by their documentation.
* `M_SeedFile`: the C locale, decimal; a file can be read as a whole; a write is cut at any byte by a crash or a full disk.
* `M_Sources`: regular expressions are abstracted, a file is the list of names it includes.
* C74-C77 take `exp`, `sin`, `cos` as parameters and say in each statement what they ask of them (range, monotonicity, or correct rounding).

## 6. Not modelled

Rounding error of smoothed fields with a rotated variogram (that of correlations, of fields without smoothing and of unrotated smoothed fields is treated), execution time, FFTW's own working memory;
`covgrid2d.cpp`, the kriging functions, `Simulate1DGaussianField` with a covariance matrix (commented out in the source), `normal.cpp` (truncated draws),
input and output of grids, surfaces, well logs and all other parts of
`src/nrlib` that the Python module does not use and no property names; the plots and the clock of `util/resource_extrapolator.py`; CMake and packaging other than
`collect_sources` and the Arm build hook.

## 7. Trusted base

* Coq's kernel (8.16.1), and what `Print Assumptions` prints under each theorem (section 8).
* The reading of the source (no code is extracted or run). A hand-written transliteration of
  the same reading reproduces the regression values of
  `src/nrlib/variogram/unittests/gaussianfield_test.cpp` (`Sim2dValues`) to 13 digits.
* FFTW, libm, pybind11, numpy, scipy, the C++ and Python standard libraries and the compiler are represented by their documented meaning.

## 8. Axioms

Only axioms of Coq's standard library appear: `ClassicalDedekindReals.sig_forall_dec`, `ClassicalDedekindReals.sig_not_dec`
(the real numbers), `FunctionalExtensionality.functional_extensionality_dep`, `Classical_Prop.classic`.

* No axiom: C01_seed_reproducible, C02_seed_raises, C02_seed_reported, C03_replay, C04_seed_low_32_bits, C07_same_step, C08_parity, C09_low_dim_independent, C10_queries_harmless, C11_threads_mixed, C11_threads_same_fields, C14_consecutive, C14_noise_1d, C14_noise_2d, C14_noise_3d, C15_C22_unused_arguments_1d, C15_C22_unused_arguments_2d, C15_result_length, C16_fortran_order_1d, C16_fortran_order_2d, C16_fortran_order_3d, C18_dimension_partial, C19_best_size, C19_float_size_refuted, C19_grid_used, C19_one_cell_refuted, C20_in_bounds_partial, C21_explicit_default_padding, C22_defaults, C22_large_smoothing, C23_defined_exact_partial, C23_defined_partial, C31_table_1d, C31_table_2d, C31_table_3d, C32_symmetric_1d, C34_case_insensitive, C34_documented_names, C34_every_other_name_refuted, C34_non_ascii, C34_other_names, C35_negative_ranges, C42_effect, C42_like_fresh, C42_throws, C44_cell_of_index_2d, C44_cell_of_index_3d, C44_in_range, C44_index_of_cell_2d, C44_index_of_cell_3d, C44_valid, C44_write_one_cell_2d, C44_write_one_cell_3d, C46_leak_count_partial, C47_other_names_partial, C47_star_import_refuted, C51_advanced, C51_corr, C51_default, C51_keyword_order, C51_position_or_keyword, C51_rejected, C51_seed, C51_size_simulate, C51_variogram, C52_stubs_partial, C53_none_always, C53_none_elsewhere, C53_none_partial, C54_members, C54_one_each, C55_fields_2d_null, C55_fields_2d_partial, C55_fields_3d, C56_repeats, C56_same_seed_same_field, C56_unseeded, C57_like_python, C57_own_generator_1d, C57_own_generator_2d, C58_vector_filled_partial, C58_vector_too_long_refuted, C62_all, C62_backwards, C62_errors, C62_offsets, C62_one, C62_random, C62_regular, C66_seed_partial, C66_seed_zero_refuted, C68_failed_read_partial, C68_refused, C68_reported_seed_refuted, C68_what_is_reported, C69_handover, C69_read, C69_text, C70_crash_partial, C70_crash_refuted, C70_full_disk_refuted, C71_all_needed, C71_only_needed, C71_start_header_refuted, C72_ends, C73_folders_refuted, C73_skipped_partial, C78_at_most_2_32_fields, C78_fields_refuted, C79_repeat_refuted, C80_different_seconds_refuted, C80_same_second, C80_time_refuted, C82_calls, C83_all_or_nothing_partial, C83_drawn_in_vain, C83_exception_refuted, C83_nothing_left, C84_forked_refuted, C84_isolated, C86_interrupted_refuted, C86_packaged_partial, C86_version_refuted, C87_again, C87_download_refuted, C87_retry_partial, C88_ignored, C92_size, C94_fits_partial, C94_up_to_2_18.
* `sig_forall_dec`, `functional_extensionality_dep`: C66_axis_refuted, C82_errors, C82_fit, C82_line.
* The same and `sig_not_dec`: C38_norm, C59_estimate, C59_unbiased, C60_first_value, C61_dummy_data, C63_shapes_refuted, C64_groups, C64_mean, C64_points, C64_value, C65_deviation.
* All four: C05_seeds_differ, C05_seeds_differ_double, C06_module_reachable, C06_uniform_range, C07_same_programs, C07_same_streams, C08_no_shorter_cycle, C08_step_injective, C11_one_at_a_time, C11_race_any, C11_race_overrun, C11_race_same_field, C12_centre_refuted, C12_finite_partial, C12_generator_partial, C13_branches, C13_central_law, C13_central_probability, C13_envelope, C13_mixture, C13_retry, C13_tail_branch, C13_tail_disc, C13_tail_first, C13_tail_law, C13_tail_pair, C13_tail_radius, C13_tail_second, C13_total, C17_any_variogram, C17_doubles, C17_size_rule, C18_missing_spacing_refuted, C19_double_precision, C19_single_precision, C19_single_precision_refuted, C20_doubles_partial, C20_large_grid_refuted, C20_negative_spacing_refuted, C23_search_refuted, C24_api, C24_covariance_1d, C24_exact_1d, C25_api, C25_covariance_2d, C25_exact_2d, C26_api, C26_covariance_3d, C26_exact_3d, C27_covariance, C27_no_negative_spectrum, C28_padded_partial, C28_trace_refuted, C29_variance_1d, C29_variance_2d, C29_variance_3d, C30_linear_1d, C30_linear_2d, C30_linear_3d, C30_mean_1d, C30_mean_2d, C30_mean_3d, C30_zero_1d, C30_zero_2d, C30_zero_3d, C31_origin, C32_half_row_refuted, C32_no_rotation_partial, C32_products_commute, C32_symmetric_2d_partial, C32_symmetric_3d_partial, C33_images_1d_partial, C33_images_1d_refuted, C33_images_2d_partial, C33_images_2d_refuted, C33_images_3d_partial, C33_images_3d_refuted, C34_call, C34_different, C34_functions, C34_general_exponential, C34_python, C35_zero_everywhere_refuted, C35_zero_nan_refuted, C35_zero_range_refuted, C36_correlation, C37_dimensions, C37_double_1d, C37_double_2d, C38_axes, C38_half_turn_partial, C38_half_turn_refuted, C39_five_percent, C40_bitwise_symmetric, C41_never_increases, C41_one_range_x_partial, C41_one_range_y_partial, C41_one_range_y_refuted, C41_rotated_partial, C43_energy_1d, C43_energy_2d, C43_energy_3d, C43_round_trip_1d, C43_round_trip_2d, C43_round_trip_3d, C45_bulk_is_single, C46_no_accumulation_refuted, C48_units, C49_constant, C50_raw_noise, C52_stubs_refuted, C53_none_refuted, C55_fields_2d_refuted, C60_reported_distance_refuted, C60_shift, C61_exact_refuted, C65_zero_mean_refuted, C67_bounds, C67_points, C67_values, C69_chain, C74_above_one_refuted, C74_nan_refuted, C74_nearly_partial, C74_one_dimension_partial, C74_rotated_partial, C74_spherical, C75_lag_zero, C75_tiny_range_refuted, C76_general_exponential_partial, C76_matern_refuted, C76_monotone_partial, C76_nearly_partial, C76_spherical_refuted, C77_rotated_nan_refuted, C77_rotated_partial, C77_rotated_refuted, C77_unrotated_all_partial, C77_unrotated_partial, C81_default_padding_refuted, C81_variance_1d_partial, C83_retry_refuted, C85_fields_2d_partial, C85_fields_3d_partial, C85_noise_1d, C85_noise_2d, C85_noise_3d, C85_simulate_1d_partial, C85_simulate_2d_partial, C85_simulate_3d_partial, C85_tables_partial, C88_effect, C89_compass, C89_degrees, C89_size_refuted, C89_swap, C90_ranges, C91_grows, C92_any_direction, C93_azimuth, C93_dip, C94_wrap_refuted, C95_fields_partial, C95_long, C95_long_refuted, C95_short, C95_short_refuted, C95_tables_partial, C96_kilometres_refuted, C96_power_of_two_partial, C96_still_made, C97_answers_partial, C97_fields_partial, C97_long_range_refuted, C97_many_cells_refuted, C97_other_cells_refuted, C97_other_ranges_refuted, C98_any_cell_size_refuted, C98_cell_size_refuted, C98_lag_refuted, C98_other_lags_refuted, C98_other_ranges_refuted, C98_range_refuted, C98_variogram_refuted.

{"id": "C01", "title": "Seeding makes every later result reproducible", "statement": "After seed(s), the values returned by any sequence of later module calls (simulate, advanced.simulate, simulation_size, seed(), variogram, corr) are a function of s and of that sequence only: two processes with arbitrary different earlier histories that both call seed(s) and then make the same calls get the same results.", "quantifier": "all seeds s in [0,2^64), all earlier histories, all later call sequences of any length", "why_tests_cant": "A test compares one or two runs; the claim is about every earlier history and every later sequence.", "anchors": ["src/gaussfftinterface.cpp: seed", "src/gaussfft.cpp: GaussFFT::SimulateWithAdvancedSettings", "src/nrlib/random/random.cpp: Random::Initialize", "src/nrlib/variogram/gaussianfield.cpp"]}
{"id": "C02", "title": "seed() reports the seed in force", "statement": "seed() raises, and changes nothing, exactly when neither seed(s) nor any simulate call has happened yet. Otherwise it returns the argument of the last seed(s), or the automatically chosen seed if there was none, however many simulations ran in between.", "quantifier": "all histories of module calls", "why_tests_cant": "Every interleaving of seed, seed() and simulate calls of any length, including failing simulate calls.", "anchors": ["src/gaussfftinterface.cpp: seed", "src/nrlib/random/random.cpp: Random::GetStartSeed, Random::Initialize", "src/gaussfft.cpp: SimulateWithAdvancedSettings"]}
{"id": "C03", "title": "An automatically seeded run can be replayed", "statement": "If the first random call of a process is a simulate call (no seed given), then S = seed() is a number in [0,2^32), and seed(S) followed by the same simulate calls reproduces the same fields and the same generator state, whatever the wall clock said.", "quantifier": "all wall-clock values, all call sequences", "why_tests_cant": "Depends on the clock; a test sees a handful of clock values.", "anchors": ["src/nrlib/random/random.cpp: Random::Initialize()", "src/gaussfft.cpp: SimulateWithAdvancedSettings"]}
{"id": "C04", "title": "Only the low 32 bits of the seed matter", "statement": "Seeds that agree modulo 2^32 give identical simulations (although seed() reports the full number): the seed space a user can reach has at most 2^32 members.", "quantifier": "all pairs of seeds in [0,2^64), all call sequences", "why_tests_cant": "2^64 seeds; needs an argument about the truncation, not sampling.", "anchors": ["src/nrlib/random/random.cpp: Random::InitializeMT", "src/nrlib/random/dSFMT.h: dsfmt_gv_init_gen_rand", "src/gaussfftinterface.cpp: seed"]}
{"id": "C05", "title": "Different seeds give different random streams", "statement": "Two seeds that differ modulo 2^32 never produce the same stream of uniform numbers.", "quantifier": "all pairs of 32-bit seeds", "why_tests_cant": "2^63 pairs of infinite streams.", "anchors": ["src/nrlib/random/dSFMT.cpp: dsfmt_chk_init_gen_rand, dsfmt_gen_rand_all", "src/nrlib/random/dSFMT-common.h: do_recursion"]}
{"id": "C06", "title": "Uniform numbers are in [0,1)", "statement": "Every uniform number the generator ever returns, for every seed and after every number of draws, is an exact multiple of 2^-52 in [0,1) ((0,1) for the open variant, (0,1] for the open-close one), with no rounding in the conversion; every 32-bit draw is below 2^32.", "quantifier": "all seeds, all histories of draws", "why_tests_cant": "The state invariant must hold after every step of an unbounded stream.", "anchors": ["src/nrlib/random/dSFMT.h: dsfmt_genrand_close_open, dsfmt_genrand_open_open, dsfmt_genrand_open_close, dsfmt_genrand_uint32", "src/nrlib/random/dSFMT.cpp: initial_mask, dsfmt_gen_rand_all"]}
{"id": "C07", "title": "The generator is the same on x86 and ARM", "statement": "The SSE2 code path and the portable code path of the generator compute the same stream for every seed, so seeded uniform streams are platform independent.", "quantifier": "all 128-bit operands / all seeds and all stream positions", "why_tests_cant": "Operands range over 2^384 values; no test runs both code paths.", "anchors": ["src/nrlib/random/dSFMT-common.h: do_recursion (two variants)", "src/nrlib/random/dSFMT.h: HAVE_SSE2"]}
{"id": "C08", "title": "The generator never degenerates", "statement": "From every state reachable from a seed, the state-update step is invertible, so no two distinct states merge and no stream can run into a shorter cycle through merging; and the start state always satisfies the period-certification parity condition.", "quantifier": "all seeds, all stream positions", "why_tests_cant": "State space of 2^24576 elements.", "anchors": ["src/nrlib/random/dSFMT.cpp: dsfmt_gen_rand_all, period_certification, dsfmt_chk_init_gen_rand"]}
{"id": "C09", "title": "1D and 2D simulations are independent of each other's shape", "statement": "After seed(s), the k-th simulate call, when all calls before it are 1D or 2D, depends only on s, k and its own arguments: changing the grids, variograms, paddings or smoothing of the earlier calls does not change it. (Each 1D/2D call takes exactly one 32-bit draw from the shared stream.)", "quantifier": "all seeds, all k, all argument lists", "why_tests_cant": "All pairs of earlier argument lists of any length.", "anchors": ["src/nrlib/variogram/gaussianfield.cpp: Simulate1DGaussianField, Simulate2DGaussianField", "src/gaussfft.cpp"]}
{"id": "C10", "title": "Queries do not disturb the random stream", "statement": "variogram, corr, simulation_size and seed() never change what later simulate calls return: inserting or deleting such calls anywhere in a program leaves every field unchanged.", "quantifier": "all programs, all positions", "why_tests_cant": "Needs a claim for all programs.", "anchors": ["src/gaussfftinterface.cpp", "src/gaussfft.cpp: FindGridSizeAfterPadding, CreateVariogram", "src/nrlib/variogram/variogram.cpp: GetCorr"]}
{"id": "C11", "title": "Serialised threads get the same set of fields", "statement": "With calls serialised by the interpreter lock, any interleaving of threads that make the same 1D/2D simulate call produces the same list of fields in execution order, whatever the schedule. Without serialisation (the module declares mod_gil_not_used) two concurrent draws can return the same number, hence identical fields. The same holds for any number of concurrent calls of any dimension: there is a schedule in which each of them, a 3D call included, returns the field it would have returned had it been the only one.", "quantifier": "all schedules of any number of threads", "why_tests_cant": "Schedules cannot be enumerated by tests.", "anchors": ["src/gaussfftinterface.cpp: PYBIND11_MODULE(mod_gil_not_used)", "src/nrlib/variogram/gaussianfield.cpp", "src/nrlib/random/dSFMT.h: dsfmt_genrand_uint32"]}
{"id": "C12", "title": "Normal draws are finite", "statement": "Every normal draw terminates with a finite number whenever its uniform inputs let the rejection loops end: at most 3 in absolute value from the three central branches and more than 3 from the tail branch.", "quantifier": "all streams of uniform inputs", "why_tests_cant": "Depends on exact coincidences of 52-bit numbers.", "anchors": ["src/nrlib/random/random.cpp: Random::Norm01, Random::g", "src/nrlib/random/randomgenerator.cpp: RandomGenerator::Norm01"]}
{"id": "C13", "title": "The normal sampler's pieces add up to the normal density", "statement": "The mixture of the four branch densities used for normal draws equals the standard normal density (up to the rounding of the tabulated constants) on |x|<3, and the rejection step's envelope constant 0.358 bounds the residual density, which is non-negative, for every x in [-3,3]. Beyond 3, a point uniform in the unit disc is moved along its direction to a radius that has exactly the law of the radius of a normal pair given that it exceeds 3; the first coordinate beyond 3 is returned, otherwise the branch starts again. So, for every q >= 3, the values that exceed q (or lie below -q) are returned with exactly the share the normal law gives them.", "quantifier": "all real x in [-3,3]; all real thresholds q >= 3", "why_tests_cant": "A statement about a continuum.", "anchors": ["src/nrlib/random/random.cpp: Random::Norm01, Random::g", "src/nrlib/random/randomgenerator.cpp"]}
{"id": "C14", "title": "Every cell gets its own noise draw", "statement": "A simulation on an N-cell padded grid uses exactly N consecutive normal draws, each cell of the padded grid receives exactly one of them and no draw is used twice.", "quantifier": "all grid sizes in 1D, 2D and 3D", "why_tests_cant": "All sizes.", "anchors": ["src/nrlib/variogram/gaussianfield.cpp: noise loops of Simulate1D/2D/3DGaussianField", "src/nrlib/grid/grid.hpp: Grid::GetIndex", "src/nrlib/grid/grid2d.hpp"]}
{"id": "C15", "title": "Length of the result", "statement": "simulate returns nx values when ny<=1 or dy<0, nx*ny values when that fails and nz<=1 or dz<0, and nx*ny*nz values otherwise; the generator state change does not depend on the unused arguments.", "quantifier": "all sizes and spacings for which the call returns", "why_tests_cant": "All argument combinations.", "anchors": ["src/gaussfft.cpp: SimulateWithAdvancedSettings, Simulate1D, Simulate2D, Simulate3D"]}
{"id": "C16", "title": "Results are in Fortran order", "statement": "Reshaping the returned vector in Fortran order gives the simulated field: entry i + nx*j + nx*ny*k is the value of the padded periodic field at cell (i,j,k).", "quantifier": "all sizes, all cells", "why_tests_cant": "All sizes and cells.", "anchors": ["src/nrlib/fft/fftgrid2d.hpp: GetRealGrid", "src/nrlib/fft/fftgrid3d.hpp: GetRealGrid", "src/nrlib/grid/grid.hpp: GetIndex", "README.md"]}
{"id": "C17", "title": "simulation_size leaves room for one correlation range", "statement": "For a variogram with positive ranges and positive spacings, simulation_size returns one number per simulated dimension, each strictly greater than n + range/step (range being the largest horizontal range for x, and for y unless azimuth is 0) and strictly greater than ratio*range/step where ratio is the variogram type's minimum grid-to-range ratio, and it is the smallest such integer rule: n + max(floor(range/step), trunc(ratio*range/step - n)) + 1.", "quantifier": "all variograms, sizes and spacings whose padding fits a C int", "why_tests_cant": "Continuum of ranges and steps.", "anchors": ["src/nrlib/variogram/gaussianfield.cpp: FindGaussianFieldPadding, FindNDimPadding", "src/gaussfft.cpp: FindGridSizeAfterPadding"]}
{"id": "C18", "title": "simulation_size and simulate agree on the dimension", "statement": "simulation_size returns a list whose length is the number of dimensions simulate actually simulates for the same arguments.", "quantifier": "all argument lists", "why_tests_cant": "Corner arguments (default spacing -1) are not covered by examples.", "anchors": ["src/nrlib/variogram/gaussianfield.cpp: FindNDimPadding", "src/gaussfft.cpp: SimulateWithAdvancedSettings", "src/gaussfftinterface.cpp: default arguments"]}
{"id": "C19", "title": "The FFT grid is the best 7-smooth size", "statement": "The size actually used in each direction is the least number of the form 2^a 3^b 5^c 7^d (even, where required) that is not below the requested size, and is less than twice the requested size.", "quantifier": "all requested sizes", "why_tests_cant": "Every size; off-by-one only shows at rare sizes.", "anchors": ["src/nrlib/fft/fft.cpp: FindNewSizeWithPadding"]}
{"id": "C20", "title": "Simulations never read or write outside their arrays", "statement": "For all sizes and paddings accepted by the API, every array access of a simulation is in bounds.", "quantifier": "all sizes, spacings, paddings, smoothing parameters", "why_tests_cant": "Out-of-bounds only happens at special sizes.", "anchors": ["src/nrlib/variogram/gaussianfield.cpp", "src/nrlib/fft/fft.cpp: FindNewSizeWithPadding", "src/nrlib/fft/fftgrid2d.hpp", "src/nrlib/fft/fftgrid3d.hpp", "src/nrlib/fft/fft.hpp"]}
{"id": "C21", "title": "Explicit padding equal to the default changes nothing", "statement": "advanced.simulate with pad = simulation_size - n in each direction returns exactly what simulate returns from the same generator state, and leaves the same state.", "quantifier": "all variograms, sizes, spacings, generator states", "why_tests_cant": "All inputs and states.", "anchors": ["src/gaussfft.cpp: Simulate, SimulateWithAdvancedSettings, FindGridSizeAfterPadding", "src/nrlib/variogram/gaussianfield.cpp"]}
{"id": "C22", "title": "advanced.simulate extends simulate", "statement": "advanced.simulate with its default arguments is simulate. Smoothing parameters of at least 0.99999 have no effect on the field, and smoothing parameters of unsimulated directions and padding of unsimulated directions are ignored.", "quantifier": "all inputs and generator states", "why_tests_cant": "All inputs and states.", "anchors": ["src/gaussfft.cpp", "src/gaussfftinterface.cpp", "src/nrlib/variogram/fftcovgrid.cpp: apply_scaling_x"]}
{"id": "C23", "title": "Grid-size search stays within defined behaviour", "statement": "The search for an FFT-friendly size never converts a floating point value to an integer type that cannot hold it.", "quantifier": "all requested sizes", "why_tests_cant": "Undefined behaviour is invisible to tests on one platform.", "anchors": ["src/nrlib/fft/fft.cpp: FindNewSizeWithPadding"]}
{"id": "C24", "title": "1D: the field has the requested covariance", "statement": "In exact arithmetic the 1D field is a fixed linear image of the noise, and for uncorrelated unit-variance noise the covariance of cells i and i' is the inverse DFT of max(DFT(c),0) at i-i', where c is the periodised covariance table. When no spectral value is negative, this is exactly corr(min(d, N-d)*dx), d=|i-i'|, N the padded size.", "quantifier": "all variograms, sizes, spacings, paddings; all pairs of cells", "why_tests_cant": "Statistical tests see noise of order 1/sqrt(n); the claim is exact and for all sizes.", "anchors": ["src/nrlib/variogram/gaussianfield.cpp: Simulate1DGaussianField", "src/nrlib/fft/fft.hpp: ComputeFFT1D, ComputeFFTInv1D", "src/nrlib/variogram/fftcovgrid.cpp: FFTCovGrid1D"]}
{"id": "C25", "title": "2D: the field has the requested covariance", "statement": "The same in 2D: the covariance of two cells is the 2D inverse DFT of the clipped spectrum at their difference; when no spectral value is negative it equals corr of the wrapped lag vector (for lags other than exactly half the padded size).", "quantifier": "all variograms, sizes, spacings, paddings; all pairs of cells", "why_tests_cant": "As in 1D.", "anchors": ["src/nrlib/variogram/gaussianfield.cpp: Simulate2DGaussianField", "src/nrlib/fft/fftgrid2d.hpp", "src/nrlib/variogram/fftcovgrid.cpp: FFTCovGrid2D"]}
{"id": "C26", "title": "3D: the field has the requested covariance", "statement": "The same in 3D.", "quantifier": "all variograms, sizes, spacings, paddings; all pairs of cells", "why_tests_cant": "As in 1D.", "anchors": ["src/nrlib/variogram/gaussianfield.cpp: Simulate3DGaussianField", "src/nrlib/fft/fftgrid3d.hpp", "src/nrlib/variogram/fftcovgrid.cpp: FFTCovGrid3D"]}
{"id": "C27", "title": "1D convex variograms are simulated exactly", "statement": "For the exponential, spherical, constant and general-exponential (power <= 1) variograms in 1D, no spectral value is ever negative, whatever the size, spacing and padding: nothing is clipped and the covariance of the field is exactly the periodised variogram.", "quantifier": "all ranges, sizes, spacings, paddings", "why_tests_cant": "Infinite family of spectra.", "anchors": ["src/nrlib/variogram/gaussianfield.cpp: Simulate1DGaussianField", "src/nrlib/variogram/variogramtypes.hpp: ExpVario, SphVario, ConstVario, GenExpVario"]}
{"id": "C28", "title": "1D spherical fields have exactly the spherical covariance", "statement": "With the default padding the covariance of any two cells of a 1D spherical field is exactly corr of their distance: periodicity leaves no trace. For the other convex variograms the deviation caused by periodicity is at most corr at one range.", "quantifier": "all ranges, sizes, spacings; all pairs of cells", "why_tests_cant": "Exact statement over a continuum.", "anchors": ["src/nrlib/variogram/gaussianfield.cpp: FindGaussianFieldPadding, Simulate1DGaussianField"]}
{"id": "C29", "title": "Clipping never lowers the variance", "statement": "In every dimension the variance of the field is the same in every cell, is at least the requested variance 1, and equals it if and only if no spectral value was clipped; no covariance is off by more than the total clipped spectral mass divided by the number of cells.", "quantifier": "all variograms, sizes, spacings, paddings", "why_tests_cant": "Continuum of inputs.", "anchors": ["src/nrlib/variogram/gaussianfield.cpp: max(real,0)"]}
{"id": "C30", "title": "Fields are linear in the noise", "statement": "The field is a linear function of the noise: zero noise gives the zero field, sums map to sums and multiples to multiples, so the field is centred when the noise is.", "quantifier": "all grids, all noise arrays", "why_tests_cant": "All noise arrays.", "anchors": ["src/nrlib/variogram/gaussianfield.cpp", "src/nrlib/fft/fftgrid2d.hpp", "src/nrlib/fft/fftgrid3d.hpp", "src/nrlib/fft/fft.hpp"]}
{"id": "C31", "title": "The covariance table is complete and correct", "statement": "Every cell of the periodised covariance table is written, and cell (i,j,k) holds the covariance at the wrapped lag (i or i-nx, j or j-ny, k or k-nz) times spacing, times the smoothing kernel at that lag; the origin holds 1.", "quantifier": "all table sizes (odd and even) and cells in 1D, 2D, 3D", "why_tests_cant": "Eight hand-written octant loops, all sizes.", "anchors": ["src/nrlib/variogram/fftcovgrid.cpp: FFTCovGrid1D, FFTCovGrid2D, FFTCovGrid3D"]}
{"id": "C32", "title": "The covariance table is symmetric", "statement": "The periodised covariance table is point symmetric: the entries at lag index d and -d (modulo the grid size) agree, so its spectrum is real.", "quantifier": "all variograms, sizes (odd and even), cells", "why_tests_cant": "Fails only on particular rows for particular angles.", "anchors": ["src/nrlib/variogram/fftcovgrid.cpp", "src/nrlib/variogram/variogram.hpp: Distance"]}
{"id": "C33", "title": "Wrapped images are further than one range away", "statement": "With default padding, for any two cells of the simulated grid every non-trivial periodic image of their separation vector is further than one correlation range (normalised distance > 1).", "quantifier": "all variograms, sizes, spacings; all pairs of cells; all periodic images", "why_tests_cant": "Continuum of angles and ranges.", "anchors": ["src/nrlib/variogram/gaussianfield.cpp: FindNDimPadding", "src/nrlib/variogram/variogram.hpp: Distance"]}
{"id": "C34", "title": "Variogram type names", "statement": "The type name is matched case-insensitively, every documented name selects its own correlation function, the eight functions are pairwise different, and every other name silently gives the spherical one.", "quantifier": "all strings", "why_tests_cant": "All strings.", "anchors": ["src/gaussfft.cpp: CreateVariogram", "src/nrlib/iotools/stringtools.cpp: Uppercase", "gaussianfft/__init__.py: VariogramType"]}
{"id": "C35", "title": "Default ranges", "statement": "A perpendicular or vertical range that is not given (negative, or zero as documented) means the main range.", "quantifier": "all argument lists", "why_tests_cant": "Boundary value zero is documented but not tested.", "anchors": ["src/gaussfft.cpp: CreateVariogram", "src/gaussfftinterface.cpp: variogram docstring"]}
{"id": "C36", "title": "Correlation functions are correlations", "statement": "For positive ranges, corr is 1 at lag zero, lies in [0,1] everywhere, is symmetric under reversal of the lag vector, and never increases when the lag vector is scaled up.", "quantifier": "all variogram types, ranges, angles, powers > 0, lag vectors", "why_tests_cant": "Continuum.", "anchors": ["src/nrlib/variogram/variogram.cpp: GetCorr, EstimateFactors", "src/nrlib/variogram/variogramtypes.hpp", "src/nrlib/variogram/variogram.hpp: Distance"]}
{"id": "C37", "title": "corr agrees across dimensions", "statement": "corr(x) = corr(x,0) = corr(x,0,0) and corr(x,y) = corr(x,y,0) for every variogram.", "quantifier": "all variograms and lags", "why_tests_cant": "Continuum.", "anchors": ["src/nrlib/variogram/variogram.hpp: GetCov, Distance", "src/nrlib/variogram/variogram.cpp: GetCorr", "src/gaussfftinterface.cpp: corr overloads"]}
{"id": "C38", "title": "Azimuth and dip rotate the variogram", "statement": "Along the direction given by azimuth (counter-clockwise from x, after dip towards z) the correlation is the one-dimensional function of distance/main_range, along the horizontal perpendicular that of distance/perp_range, along the third axis that of distance/depth_range; adding 180 degrees to the azimuth changes nothing; the normalised distance is a norm.", "quantifier": "all ranges, angles and lag vectors", "why_tests_cant": "Continuum.", "anchors": ["src/nrlib/variogram/variogram.cpp: EstimateFactors", "src/nrlib/variogram/variogram.hpp: Distance"]}
{"id": "C39", "title": "Correlation at one range is five percent", "statement": "At a distance of one range the correlation is within 0.001 of 0.05 for the exponential, gaussian, general exponential and Matern types, 0 for spherical and 1 for constant.", "quantifier": "all ranges, all types", "why_tests_cant": "Numerical constants for a continuum of ranges.", "anchors": ["src/nrlib/variogram/variogramtypes.hpp"]}
{"id": "C40", "title": "corr is bit-for-bit symmetric in double precision", "statement": "In IEEE double arithmetic, corr of the negated lag vector returns the identical double as corr of the lag vector, for every variogram object and all lags, including special values.", "quantifier": "all doubles", "why_tests_cant": "2^192 lag vectors.", "anchors": ["src/nrlib/variogram/variogram.hpp: Distance", "src/nrlib/variogram/variogram.cpp: GetCorr"]}
{"id": "C41", "title": "Smoothing kernel", "statement": "A smoothing parameter s in (0,0.99999) multiplies the covariance at distance one axis range by exactly s, leaves lag zero unchanged, never increases any covariance and keeps the 1D table symmetric.", "quantifier": "all parameters and lags", "why_tests_cant": "Continuum.", "anchors": ["src/nrlib/variogram/fftcovgrid.cpp: FindSmoothingFactors, FindVariogramRanges", "src/nrlib/variogram/fftcovgrid.hpp: FindSmoothingFactorX"]}
{"id": "C42", "title": "Variogram objects stay consistent under mutation", "statement": "After any sequence of setter calls (ranges, single ranges, limits, angles, rotations, standard deviation), successful or throwing, a variogram object answers every query like a freshly built object with its current parameters; a throwing setter changes nothing.", "quantifier": "all setter sequences of any length", "why_tests_cant": "All histories.", "anchors": ["src/nrlib/variogram/variogram.cpp: SetRanges, SetRangeX, SetRangeY, SetRangeZ, LimitRangeX, LimitRangeY, LimitRangeZ, SetAngles, RotateAngles, SetStdDev"]}
{"id": "C43", "title": "Forward and inverse FFT cancel", "statement": "In exact arithmetic, transforming a grid forward and back returns the grid, for both scaling conventions, all sizes and 1D, 2D and 3D; the forward-scaled transform preserves the sum of squares.", "quantifier": "all grids", "why_tests_cant": "All sizes and contents.", "anchors": ["src/nrlib/fft/fft.hpp", "src/nrlib/fft/fftgrid2d.hpp: DoFFT, DoInverseFFT", "src/nrlib/fft/fftgrid3d.hpp: DoFFT, DoInverseFFT"]}
{"id": "C44", "title": "Grid indexing is a bijection", "statement": "Flat index and (i,j,k) index of the grid containers are inverse to each other, in range exactly for valid cells, and writing one cell changes that cell only.", "quantifier": "all grid sizes and cells", "why_tests_cant": "All sizes.", "anchors": ["src/nrlib/grid/grid.hpp: GetIndex, GetIJK, SetValue", "src/nrlib/grid/grid2d.hpp: GetIndex, GetIJ, IsValidIndex"]}
{"id": "C45", "title": "Bulk and single draws agree", "statement": "Filling an array of uniform numbers in one call gives the same numbers as drawing them one by one from the same freshly initialised generator, and leaves the generator able to continue the same stream.", "quantifier": "all seeds, all admissible array sizes", "why_tests_cant": "All sizes and seeds.", "anchors": ["src/nrlib/random/dSFMT.cpp: gen_rand_array_c1o2, gen_rand_array_c0o1, gen_rand_array_o0o1, gen_rand_array_o0c1, dsfmt_fill_array_*"]}
{"id": "C46", "title": "Simulating does not accumulate memory", "statement": "Memory allocated by a simulate call, other than the returned array, is released when the call returns.", "quantifier": "all call sequences", "why_tests_cant": "Leaks are invisible to value tests.", "anchors": ["src/nrlib/variogram/gaussianfield.cpp: new RandomGenerator in Simulate1D/2DGaussianField"]}
{"id": "C47", "title": "The package exports what it advertises", "statement": "Every name in the package's __all__ is defined, so 'from gaussianfft import *' works.", "quantifier": "all exported names", "why_tests_cant": "No test performs a star import.", "anchors": ["gaussianfft/__init__.py: __all__", "src/gaussfftinterface.cpp"]}
{"id": "C48", "title": "The unit of length does not matter", "statement": "Multiplying every range, spacing and separation by the same positive factor changes no result: simulate and advanced.simulate return the same fields, simulation_size the same sizes (when a spacing is given in every direction with more than one cell) and corr the same values.", "quantifier": "all variograms with non-zero ranges, grids, paddings, smoothing arguments, factors and states; exact arithmetic", "why_tests_cant": "The factor is any positive real; tests compare a few rounded runs.", "anchors": ["src/gaussfftinterface.cpp: simulate, simulation_size, variogram", "src/nrlib/variogram/variogram.cpp: EstimateFactors", "src/gaussfft.cpp: FindGaussianFieldPadding"]}
{"id": "C49", "title": "A constant variogram gives a constant field", "statement": "With the 'constant' variogram and no smoothing every cell of a simulated field has the same value: the sum of the normal draws divided by the square root of their number (so it is standard normal).", "quantifier": "all 1D, 2D and 3D grids that fit the padded grid, seeds and paddings; exact arithmetic", "why_tests_cant": "A test sees rounded values on a few grids.", "anchors": ["src/nrlib/variogram/gaussianfield.cpp: Simulate1D/2D/3DGaussianField", "src/nrlib/variogram/variogramtypes.hpp: ConstantVario"]}
{"id": "C50", "title": "Ranges below the cell size give white noise", "statement": "With a 'spherical' variogram none of whose ranges exceeds any spacing the simulated field is the raw sequence of normal draws, cell by cell, whatever the padding, angles and smoothing.", "quantifier": "all 1D, 2D and 3D grids that fit the padded grid, angles, seeds, paddings and smoothing arguments; exact arithmetic", "why_tests_cant": "Holds for every grid and seed; a test sees rounded values on a few grids.", "anchors": ["src/nrlib/variogram/gaussianfield.cpp: Simulate1D/2D/3DGaussianField", "src/nrlib/variogram/variogramtypes.hpp: SphericalVario"]}
{"id": "C51", "title": "Arguments mean the same by position, by keyword and by default", "statement": "In variogram, simulation_size, simulate and advanced.simulate an argument may be given by position or by its name, keywords in any order, and giving the default is the same as leaving it out; ints and bools do for floats, but floats do not do for sizes. A call that fits the signature does what the function does with these values; any other call raises TypeError and changes nothing. seed and corr take arguments by position only.", "quantifier": "all functions, positional and keyword argument lists, objects and states", "why_tests_cant": "Ranges over every Python argument list and every random state; a test fixes one call.", "anchors": ["src/gaussfftinterface.cpp:167-258", "gaussianfft/__init__.py:24-27"]}
{"id": "C52", "title": "The overloads in the type stubs mean what they say", "statement": "A call by position that matches an overload of the .pyi stubs does what the same call does with the stub's parameter names as keywords.", "quantifier": "all stub overloads and argument values", "why_tests_cant": "Ranges over every Python argument list and every random state; a test fixes one call.", "anchors": ["gaussianfft/__init__.pyi", "gaussianfft/advanced/__init__.pyi", "src/gaussfftinterface.cpp:167-258"]}
{"id": "C53", "title": "Unsuitable arguments raise an exception", "statement": "A call with an argument of the wrong type (such as None) raises TypeError and leaves the process as it was; it does not crash.", "quantifier": "all functions, argument lists and states", "why_tests_cant": "Ranges over every Python argument list and every random state; a test fixes one call.", "anchors": ["src/gaussfftinterface.cpp:167-258", "src/gaussfft.cpp:27-223"]}
{"id": "C54", "title": "VariogramType members stand for the documented types", "statement": "variogram(VariogramType.X, ...) does exactly what variogram('name of X', ...) does for each of the eight members, the variogram it creates has the type of that name, and every documented type has exactly one member.", "quantifier": "all members, further arguments and states", "why_tests_cant": "Ranges over every Python argument list and every random state; a test fixes one call.", "anchors": ["gaussianfft/__init__.py:13-27"]}
{"id": "C55", "title": "Asking for n fields at once equals asking n times", "statement": "The C++ functions that simulate n fields in one call return the same fields, and leave the random generators in the same state, as n successive calls for one field. (True in 3D and in 2D with the caller's generator, whose working grids are reused between fields. False in 2D without a generator: there one number is drawn for the whole call, so only the first field is that of a single call.)", "quantifier": "every variogram, grid, padding, smoothing, number of fields >= 1 and generator state", "why_tests_cant": "The working arrays are reused from field to field; a stale cell shows only for particular sizes and field counts, and comparing random fields of all sizes by test is not feasible.", "anchors": ["src/nrlib/variogram/gaussianfield.cpp: Simulate3DGaussianField, Simulate2DGaussianField", "src/nrlib/fft/fftgrid2d.hpp: Initialize", "src/nrlib/fft/fftgrid3d.hpp: Initialize"]}
{"id": "C56", "title": "The short 2D overload depends only on the seed that was set", "statement": "The short C++ overload of the 2D simulation (one output grid, no generator) starts a generator of its own from the seed last set: it returns the same field every time it is called until the seed is set again, whatever was drawn in between, and does not move the global generator. With no seed set it is an ordinary simulation.", "quantifier": "every variogram, 2D grid, number of calls and history of other calls in between", "why_tests_cant": "A test sees two equal fields for one history; that no history in between matters is a statement about all of them.", "anchors": ["src/nrlib/variogram/gaussianfield.cpp: Simulate2DGaussianField (short overload)", "src/nrlib/random/random.cpp: GetStartSeed"]}
{"id": "C57", "title": "A generator of the caller's own isolates a 1D or 2D simulation", "statement": "When the caller passes a generator, a 1D or 2D simulation draws only from it: the result and the state it leaves the caller's generator in do not depend on the global generator, which is neither read nor changed. A generator seeded with s gives the field a Python call gives when s is the number it draws.", "quantifier": "every variogram, grid, number of fields, caller's generator state and global state", "why_tests_cant": "Independence of a hidden global state concerns every pair of states.", "anchors": ["src/nrlib/variogram/gaussianfield.cpp: Simulate1DGaussianField, Simulate2DGaussianField", "src/nrlib/random/randomgenerator.cpp"]}
{"id": "C58", "title": "The 1D overload fills the vector it is given", "statement": "The C++ 1D simulation fills the output vector, whatever its length: a shorter vector receives the first values of a longer one. (True up to the padded grid size. False beyond it: the function then reads past the end of its work array.)", "quantifier": "every length of the output vector, 1D grid, padding and generator state", "why_tests_cant": "The length is free and the failure is an out-of-bounds read that usually goes unnoticed.", "anchors": ["src/nrlib/variogram/gaussianfield.cpp: Simulate1DGaussianField"]}
{"id": "C59", "title": "What EmpiricalVariogram.estimate_variogram computes", "statement": "EmpiricalVariogram.estimate_variogram(nmax, resolution, refs), if no simulation fails and every reference point has a cell at least one resolution away, returns one value per bin of the distances from the first cell; the value is the average over nmax simulated fields, over the reference points that have that bin, and over the cells in the bin, of one minus half the squared difference, and it is missing exactly if a bin is empty. It simulates nmax+2 fields, of which the first two are not used. If the fields have unit variance, the mean of the value is the average covariance over the pairs of the bin.", "quantifier": "every grid, resolution, list of reference points, number of simulations, simulator and its state; every joint distribution of the fields with given covariances", "why_tests_cant": "the distances, bins and averages depend on the grid and the reference points, and unbiasedness is a statement about all random outcomes", "anchors": ["gaussianfft/util/empirical_variogram.py:EmpiricalVariogram.estimate_variogram", "gaussianfft/util/empirical_variogram.py:EmpiricalVariogram.binned_variogram_statistics", "gaussianfft/util/empirical_variogram.py:EmpiricalVariogram.calculate_deltas"]}
{"id": "C60", "title": "An estimate belongs to the distance it is reported at", "statement": "The value that estimate_variogram reports at a distance estimates the correlation at that distance.", "quantifier": "every row of cells, spacing, padded size, variogram of a type whose spectrum is not negative, distribution of the noise, number of simulations", "why_tests_cant": "a systematic shift is hidden by the sampling error of any finite number of simulations", "anchors": ["gaussianfft/util/empirical_variogram.py:EmpiricalVariogram.find_midpoints", "gaussianfft/util/empirical_variogram.py:EmpiricalVariogram.estimate_variogram", "gaussianfft/util/empirical_variogram.py:EmpiricalVariogram.true_variogram"]}
{"id": "C61", "title": "The dummy simulation reproduces the variogram", "statement": "With simulate replaced by dummy_sim, and the first cell as reference point, estimate_variogram returns the average correlation over the cells of each bin, with no error, and this agrees with true_variogram.", "quantifier": "every grid, resolution, number of simulations and correlation function that is 1 at 0 and nowhere above 1", "why_tests_cant": "bins hold different sets of cells for every grid; one grid says nothing about the others", "anchors": ["gaussianfft/util/empirical_variogram.py:EmpiricalVariogram.dummy_sim", "gaussianfft/util/empirical_variogram.py:EmpiricalVariogram.true_variogram"]}
{"id": "C62", "title": "Reference points", "statement": "pick_reference_points returns different cells of the grid: all of them ('all'), one ('origo', 'center'), as many as asked for ('random'), or between n and 2n-1 ('regular', offset below the step); n = 0 and n larger than the number of cells raise an exception for 'regular'; a negative offset counts from the end, one beyond the grid gives no point.", "quantifier": "every grid, strategy, n and offset, every sample drawn", "why_tests_cant": "the number of points depends on a truncated division of the number of cells", "anchors": ["gaussianfft/util/empirical_variogram.py:EmpiricalVariogram.pick_reference_points"]}
{"id": "C63", "title": "Estimation works for every grid shape", "statement": "estimate_variogram returns an estimate for every grid that can be simulated.", "quantifier": "every grid shape, simulator, resolution and list of reference points", "why_tests_cant": "failure for one shape is found only by trying that shape", "anchors": ["gaussianfft/util/empirical_variogram.py:EmpiricalVariogram.calculate_deltas", "gaussianfft/util/empirical_variogram.py:EmpiricalVariogram.simulate"]}
{"id": "C64", "title": "EmpiricalVariogram2 groups cells by distance", "statement": "EmpiricalVariogram2 reports one value per distance that occurs among the points used (those closer than close_range, and those with indexes that are multiples of step): the average over the simulations and over exactly the cells at that distance of the squared difference from the first cell. Its mean is twice one minus the average covariance.", "quantifier": "every grid with up to 2*10^9 cells in each direction, close_range, step, fields, and covariances", "why_tests_cant": "distances are compared with a tolerance of 1e-10, so whether groups merge depends on how close square roots of integers come", "anchors": ["gaussianfft/util/empirical_variogram2.py:EmpiricalVariogram2._find_distance_bins", "gaussianfft/util/empirical_variogram2.py:EmpiricalVariogram2._estimate_variogram_data", "gaussianfft/util/empirical_variogram2.py:EmpiricalVariogram2.estimate_variogram"]}
{"id": "C65", "title": "The padding analyzer measures the effect of padding", "statement": "PaddingAnalyzer's deviations come from the simulated fields, and their mean is zero when the fields have the variogram asked for.", "quantifier": "every row of cells, number of simulations, simulator; every exponential variogram and noise", "why_tests_cant": "a bias that does not come from the padding looks like an effect of padding in any finite experiment", "anchors": ["gaussianfft/util/padding_analyzer.py:PaddingAnalyzer.__init__", "gaussianfft/util/empirical_variogram.py:ConvergenceAnalyzer.feed", "gaussianfft/util/empirical_variogram.py:EmpiricalVariogram.estimate_variogram"]}
{"id": "C66", "title": "The padding analyzer uses the seed given and the right distances", "statement": "PaddingAnalyzer uses the seed it is given, and its attribute grid holds the distances of its deviations.", "quantifier": "every seed, every number of cells and spacing", "why_tests_cant": "tests use one seed and look at plots", "anchors": ["gaussianfft/util/padding_analyzer.py:PaddingAnalyzer.__init__", "gaussianfft/util/padding_analyzer.py:PaddingAnalyzerDefaults"]}
{"id": "C67", "title": "Covariances and semivariograms match the correlation function", "statement": "For a C++ variogram object made with positive ranges and then changed by any setter calls, with s the standard deviation given last and rho the documented correlation function for the ranges and angles the object reports: GetStdDev is |s|, GetCov is s^2*rho and GetVariogram is s^2*(1-rho), in 1D, 2D and 3D. GetVariogram is 0 at lag zero and never exceeds s^2. The functions of two points are those of their difference, in either order.", "quantifier": "all types, powers, ranges, angles, standard deviations, setter histories, lags and points (exact arithmetic)", "why_tests_cant": "Continuum of arguments and unbounded histories of setter calls.", "anchors": ["src/nrlib/variogram/variogram.cpp: GetVariogram, SetStdDev", "src/nrlib/variogram/variogram.hpp: GetCov, GetCovpoint, GetCorrpoint, GetStdDev"]}
{"id": "C68", "title": "A failed start from a seed file leaves the generator as it was", "statement": "When Random::Initialize(filename) throws, the numbers drawn afterwards and the seed reported by GetStartSeed are those of before the call.", "quantifier": "all files, file texts and generator states", "why_tests_cant": "All file contents and all states before the call.", "anchors": ["src/nrlib/random/random.cpp: Initialize(const std::string&), GetStartSeed"]}
{"id": "C69", "title": "The seed file hands the random stream from run to run", "statement": "When a program that started from a seed file writes it at its end, the next program that starts from the file reports as its seed the number the first one drew last, and has the stream of that seed; so any number of runs after each other all start, with seeds determined by the first file.", "quantifier": "all states, histories of draws, numbers of runs", "why_tests_cant": "Unbounded chains of runs.", "anchors": ["src/nrlib/random/random.cpp: Initialize(const std::string&), WriteSeedToFile"]}
{"id": "C70", "title": "A crash while the seed file is written does not lose the seed", "statement": "If the process is killed at any point of WriteSeedToFile, the next program can start from the seed file, with the old or the new seed.", "quantifier": "all crash points, states, files", "why_tests_cant": "Crash points inside a write.", "anchors": ["src/nrlib/random/random.cpp: WriteSeedToFile"]}
{"id": "C71", "title": "The build collects exactly the source files needed", "statement": "collect_sources lists, each once, exactly the files needed: the start files, the files of the project that needed files include, and the source files that belong to included headers.", "quantifier": "all projects (include graphs, cyclic or not), start files, ignored folders", "why_tests_cant": "All include graphs.", "anchors": ["utils.py: collect_sources", "CMakeLists.txt: dependants"]}
{"id": "C72", "title": "Collecting the source files ends", "statement": "collect_sources terminates on every finite project, also with cyclic includes.", "quantifier": "all finite projects", "why_tests_cant": "Non-termination cannot be tested.", "anchors": ["utils.py: collect_sources"]}
{"id": "C73", "title": "Ignored folders are the only ones ignored", "statement": "A file that an inspected file includes is left out because of the ignore list only when it lies in one of the folders listed.", "quantifier": "all projects and ignore lists", "why_tests_cant": "All projects.", "anchors": ["utils.py: add_if_necessary", "bin/find_dependants.py"]}
{"id": "C74", "title": "In double precision a correlation is a number between 0 and 1", "statement": "For positive ranges and finite lags, the double returned by corr is never a NaN, never negative and never more than 1.", "quantifier": "all variogram types, ranges, angles, powers > 0 and lags, in IEEE double arithmetic", "why_tests_cant": "2^64 or more inputs; the values that break it are one unit in the last place away from ordinary ones.", "anchors": ["src/nrlib/variogram/variogramtypes.hpp: Corr1D", "src/nrlib/variogram/variogram.hpp: Distance", "src/nrlib/variogram/variogram.cpp: GetCorr, EstimateFactors", "src/gaussfftinterface.cpp: corr"]}
{"id": "C75", "title": "In double precision the correlation at lag zero is exactly 1", "statement": "corr of a zero lag (of either sign, in one, two or three dimensions) returns exactly 1.0, whatever the type, the ranges and the angles.", "quantifier": "all variogram types, ranges, angles and powers > 0, in IEEE double arithmetic", "why_tests_cant": "All doubles for five parameters.", "anchors": ["src/nrlib/variogram/variogramtypes.hpp: Corr1D", "src/nrlib/variogram/variogram.hpp: Distance", "src/nrlib/variogram/variogram.cpp: GetCorr, EstimateFactors", "src/gaussfftinterface.cpp: corr"]}
{"id": "C76", "title": "In double precision the correlation never grows with the lag", "statement": "For 0 <= x <= y, corr(y) <= corr(x) holds for the returned doubles.", "quantifier": "all variogram types, ranges, angles, powers > 0 and pairs of finite lags", "why_tests_cant": "All pairs of doubles.", "anchors": ["src/nrlib/variogram/variogramtypes.hpp: Corr1D", "src/nrlib/variogram/variogram.hpp: Distance", "src/nrlib/variogram/variogram.cpp: GetCorr, EstimateFactors", "src/gaussfftinterface.cpp: corr"]}
{"id": "C77", "title": "Rounding does not change correlations noticeably", "statement": "The double returned by corr agrees with the exact correlation to within 0.01 (and to within k^2 * 2^-40 if no range is more than k times another).", "quantifier": "all variogram types, positive ranges, angles and lags", "why_tests_cant": "The exact value is not available to a test, and the failures are at special lags.", "anchors": ["src/nrlib/variogram/variogramtypes.hpp: Corr1D", "src/nrlib/variogram/variogram.hpp: Distance", "src/nrlib/variogram/variogram.cpp: GetCorr, EstimateFactors", "src/gaussfftinterface.cpp: corr"]}
{"id": "C78", "title": "Different seeds give different fields", "statement": "Two processes that call seed with two numbers that differ modulo 2^32 and then make the same simulate call get different fields.", "quantifier": "all pairs of seeds, all simulate calls, all earlier histories, both builds of the generator", "why_tests_cant": "2^64 pairs of seeds; a test can only try a few, and the pairs that fail are one in 2^32.", "anchors": ["src/nrlib/random/random.cpp: Initialize, DrawUint32", "src/nrlib/random/randomgenerator.cpp: Initialize", "src/nrlib/variogram/gaussianfield.cpp: Simulate1DGaussianField, Simulate2DGaussianField", "src/gaussfft.cpp: Simulate"]}
{"id": "C79", "title": "Calling simulate again gives a new field", "statement": "The fields returned by successive equal simulate calls after one seed(s) are different.", "quantifier": "all seeds, all simulate calls, all numbers of repetitions, both builds", "why_tests_cant": "For most seeds the first repetition comes after tens of thousands of calls.", "anchors": ["src/nrlib/random/random.cpp: Initialize, DrawUint32", "src/nrlib/random/randomgenerator.cpp: Initialize", "src/nrlib/variogram/gaussianfield.cpp: Simulate1DGaussianField, Simulate2DGaussianField", "src/gaussfft.cpp: Simulate"]}
{"id": "C80", "title": "Automatic seeds follow the clock", "statement": "Without a call of seed, the seed is the current time in seconds: processes whose first simulate call falls in the same second get the same results from then on (as the documentation warns), and processes started in different seconds get different ones.", "quantifier": "all clock times, all programs that start with a simulate call, all queries before it", "why_tests_cant": "Needs control of the clock, and a search among pairs of times for the second part.", "anchors": ["src/nrlib/random/random.cpp: Initialize, DrawUint32", "src/nrlib/random/randomgenerator.cpp: Initialize", "src/nrlib/variogram/gaussianfield.cpp: Simulate1DGaussianField, Simulate2DGaussianField", "src/gaussfft.cpp: Simulate", "src/gaussfftinterface.cpp: set_seed_docstring", "tests/test_multiprocess_seeding.py"]}
{"id": "C81", "title": "Fields have variance one", "statement": "Every cell of a field simulated with the default padding has variance exactly one, the variance of the variogram. (1D: for the exponential, spherical, constant and general exponential (power at most 1) variograms, whatever the padding.)", "quantifier": "All variograms, sizes, spacings and paddings; expectations over uncorrelated noise of unit variance.", "why_tests_cant": "Tests compare the empirical variance of a few fields with one, within several per cent; a few per cent too much would pass.", "anchors": ["src/nrlib/variogram/gaussianfield.cpp: FindGaussianFieldPadding, max(real,0)", "src/nrlib/variogram/variogram.hpp: GetMinimumRangeToGridRatio"]}
{"id": "C82", "title": "The resource extrapolator times the requested simulations and fits the best line", "statement": "util.resource_extrapolator: generate simulates lines, squares or cubes of nmin, nmin+nstep, ... up to nmax cells in this order and makes no other call that touches the random state; it fails with ZeroDivisionError when nmin is 1, with ValueError when nstep is 0, and returns nothing (extrapolate: IndexError) when nmin > nmax. extrapolate returns the slope of the line through the origin with the least squared error, exactly the factor when time is proportional to the number of cells; its first argument has no effect.", "quantifier": "All parameters, variogram types, states of the random generator, clock times and timings.", "why_tests_cant": "No test covers the class; the fit's optimality is a statement about every other slope, and the timings vary from run to run.", "anchors": ["gaussianfft/util/resource_extrapolator.py:ResourceExtrapolator"]}
{"id": "C83", "title": "Running out of memory is survivable", "statement": "When an allocation fails during a simulate call, the call raises an exception, and the random stream is as if the call had not been made, so that making the call again gives the field the failed call would have given.", "quantifier": "all simulate calls, all random states, every allocation of the call as the failing one", "why_tests_cant": "The failing allocation can be any of the call's; tests do not run out of memory at each of them.", "anchors": ["src/nrlib/fft/fft.hpp: ComputeFFT1D, ComputeFFTInv1D (fftw_malloc)", "src/nrlib/fft/fftgrid2d.hpp, fftgrid3d.hpp: constructors", "src/nrlib/variogram/gaussianfield.cpp: Simulate1D/2D/3DGaussianField", "src/gaussfft.cpp: SimulateWithAdvancedSettings"]}
{"id": "C84", "title": "Worker processes get their own fields", "statement": "Processes that use the module do not influence each other: each gets what its own calls give alone, whatever the others do and in whatever order. A worker process forked from a seeded process gets other fields than its parent and its siblings.", "quantifier": "all numbers of processes, all interleavings of calls, forks and new processes", "why_tests_cant": "Interleavings of processes cannot be enumerated, and that every forked process repeats its parent is a statement about all programs.", "anchors": ["src/nrlib/random/random.cpp: static members of Random", "src/nrlib/random/dSFMT.cpp: dsfmt_global_data", "src/gaussfft.cpp: SimulateWithAdvancedSettings"]}
{"id": "C85", "title": "Rounding does not noticeably change simulated fields", "statement": "Whenever simulate or advanced.simulate (with the default smoothing) returns an array, that array is, up to a stated small distance, the field that exact arithmetic would give for the same normal numbers: the covariance table, the transforms, the clipping of negative eigenvalues, the complex square root, the filtering and the scaling together move it by at most 2*sqrt(N*(eps+dl)) times the length of the noise, N being the number of grid points, eps the relative error of the transforms and dl the accuracy of the correlations (2^-46 without rotation). In particular all values are finite.", "quantifier": "all variogram types, finite powers in (0,2], ordinary ranges and angles, all grid sizes and spacings, all three dimensions, all generator states and noise, every transform library with relative error eps and every math library that rounds correctly", "why_tests_cant": "Rounding errors accumulate over the whole grid and are amplified by the square root near zero eigenvalues; tests compare a few fields with stored results of the same program and so can not see errors common to both.", "anchors": ["src/nrlib/variogram/gaussianfield.cpp: Simulate1D/2D/3DGaussianField", "src/nrlib/variogram/fftcovgrid.cpp: FFTCovGrid1D, FFTCovGrid2D, FFTCovGrid3D", "src/nrlib/fft/fft.hpp, fftgrid2d.hpp, fftgrid3d.hpp", "src/gaussfft.cpp: SimulateWithAdvancedSettings"]}
{"id": "C86", "title": "A build of the Arm package has packaged the library asked for", "statement": "When the build hook of the arm-performance-libraries package returns, the package holds every file of the library for the platform and version asked for, whole, and nothing else, and .platform.txt names that platform, whatever builds went before and however they ended.", "quantifier": "all histories of builds, platforms and versions; every step of a build as the point where an exception is raised or the process is killed", "why_tests_cant": "Builds are tested from a clean directory; a kill at every step of every history cannot be.", "anchors": ["build-packages/arm-performance-libraries/hatch_build.py: GatherArmPerformanceLibraries, state_change"]}
{"id": "C87", "title": "A failed or interrupted build of the Arm package can be repeated", "statement": "After any history of failed or killed builds, a build that meets no trouble returns with the library packaged; a build after a finished one changes nothing on the disk.", "quantifier": "all histories of builds of one version, platforms, points of failure", "why_tests_cant": "Needs a failure at every step followed by every later history.", "anchors": ["build-packages/arm-performance-libraries/hatch_build.py: _download, fetch, prepare, write_platform_file"]}
{"id": "C88", "title": "The power matters to the general exponential only", "statement": "README: general_exponential is the only type using the power. For every other name, the variogram made is the same whatever power is passed. For the general exponential, a larger power raises the correlations within one range, lowers those beyond, and leaves lag zero and one range as they were.", "quantifier": "every type name, range, angle, pair of powers and lag; the first part for any arithmetic", "why_tests_cant": "a test tries a few powers and types", "anchors": ["README.md:83", "src/gaussfft.cpp CreateVariogram", "src/nrlib/variogram/variogram.cpp Create"]}
{"id": "C89", "title": "The azimuth is 90 minus the compass azimuth", "statement": "README: the coordinate system is right-handed, so the azimuth should be 90 minus the azimuth of a left-handed (compass) grid. The correlation with azimuth 90 - a is the one with azimuth a with the two horizontal coordinates swapped, at any dip; its main range lies along the compass direction a. simulation_size is swapped along with the axes.", "quantifier": "every variogram, azimuth and lag, exact arithmetic; the sizes in double precision", "why_tests_cant": "a test samples a few angles and lags; the identity is about all of them", "anchors": ["README.md:91", "src/gaussfft.cpp CreateVariogram", "src/nrlib/variogram/variogram.cpp EstimateFactors", "src/nrlib/variogram/gaussianfield.cpp FindNDimPadding"]}
{"id": "C90", "title": "Longer ranges never lower a correlation", "statement": "If no range of one variogram is shorter than the same range of another of the same type, angles and power, then corr of the first is at least corr of the second, at every lag.", "quantifier": "every type, pair of range triples (given or left out), angles, power and lag, exact arithmetic", "why_tests_cant": "ordering over all lags and ranges", "anchors": ["src/nrlib/variogram/variogram.cpp EstimateFactors", "src/nrlib/variogram/variogramtypes.hpp Corr1D"]}
{"id": "C91", "title": "simulation_size grows with the problem", "statement": "With the same type, power and azimuth, more cells, longer ranges or smaller spacings never give a smaller size in any direction; adding a dimension does not either.", "quantifier": "every pair of calls that both return, in double precision, for positive finite ranges and spacings and up to 2^52 cells a direction", "why_tests_cant": "rounding and truncation could lose a cell for some pair of inputs no test tries", "anchors": ["src/gaussfft.cpp FindGridSizeAfterPadding", "src/nrlib/variogram/gaussianfield.cpp FindGaussianFieldPadding"]}
{"id": "C92", "title": "Equal ranges: the angles do not matter", "statement": "With all ranges equal, corr depends on the length of the lag only, whatever azimuth and dip are; simulation_size does not depend on the angles when the horizontal ranges are equal.", "quantifier": "every type, angles, power and lag (exact arithmetic for corr, any arithmetic for the sizes)", "why_tests_cant": "an identity over all angles and lags", "anchors": ["src/nrlib/variogram/variogram.cpp EstimateFactors", "src/nrlib/variogram/gaussianfield.cpp FindNDimPadding"]}
{"id": "C93", "title": "Mirror images", "statement": "Changing the sign of the azimuth mirrors the correlations in the second axis, changing the sign of the dip mirrors them in the third: corr gives the same number at the mirrored lag, in double precision.", "quantifier": "every variogram and lag in double precision, NaN and infinities included, for a C library whose sin is odd, cos even, and exp and pow do not tell the two zeros apart", "why_tests_cant": "bit patterns of all inputs", "anchors": ["src/nrlib/variogram/variogram.cpp EstimateFactors", "src/nrlib/variogram/variogram.hpp Distance", "src/nrlib/variogram/variogramtypes.hpp Corr1D"]}
{"id": "C94", "title": "Very large grids are computed or refused", "statement": "A call of simulate or advanced.simulate, however large its sizes, either uses only memory it has asked for, or raises an exception. In particular grids of 1000 x 1000 x 1000 cells and greater, which the README promises, are computed without any size or index leaving the range of the machine's integers.", "quantifier": "All sizes, paddings and dimensions; every array the call makes and every element of it that is used", "why_tests_cant": "Such grids need more memory than a test machine has; that no product of three sizes wraps is a statement about numbers up to 2^64.", "anchors": ["src/nrlib/fft/fftgrid3d.hpp: FFTGrid3D::FFTGrid3D", "src/nrlib/fft/fftgrid3d.hpp: FFTGrid3D::GetRealGrid", "src/nrlib/grid/grid.hpp: Grid::GetIndex", "src/nrlib/variogram/gaussianfield.cpp: Simulate3DGaussianField", "README.md"]}
{"id": "C95", "title": "Smoothing does not depend on the unit of length", "statement": "advanced.simulate with a smoothing parameter s between 0 and 0.99999 damps correlations by the factor s^((lag/range)^2) in double precision too, whatever the ranges: the smoothed covariances, and the field made of given noise, are those of exact arithmetic up to rounding.", "quantifier": "all unrotated variograms, grids, cell sizes, smoothing parameters and noise; every math library that rounds correctly and every transform library with a small relative error", "why_tests_cant": "The factor is computed by two calls of pow, the first of which has an exponent 1/range^2. Whether that loses the parameter depends on all bits of range and parameter together; tests with ranges of hundreds of metres and tolerances of percent never see it.", "anchors": ["src/nrlib/variogram/fftcovgrid.cpp: FindVariogramRanges, FindSmoothingFactors, FFTCovGrid1D, FFTCovGrid2D, FFTCovGrid3D", "src/gaussfftinterface.cpp: advanced.simulate"]}
{"id": "C96", "title": "Results in double precision do not depend on the unit of length", "statement": "Expressing ranges, cell sizes and separations in another unit (every length times the same factor) gives the same simulated field for the same seed, the same simulation_size and the same corr values, also in double precision and not only in exact arithmetic.", "quantifier": "all factors, variograms (name, ranges, angles, power), grids, seeds and math and transform libraries", "why_tests_cant": "An example in metres and kilometres compares two runs; the result is bit-identical for some factors and ranges and jumps by a cell for others, so only a statement over all of them tells which factors are safe.", "anchors": ["src/gaussfft.cpp: FindGridSizeAfterPadding, CreateVariogram", "src/nrlib/variogram/gaussianfield.cpp: FindGaussianFieldPadding", "src/nrlib/variogram/variogram.cpp: GetCorr", "src/nrlib/variogram/fftcovgrid.cpp: FFTCovGrid1D, FFTCovGrid2D, FFTCovGrid3D"]}
{"id": "C97", "title": "Sizes and simulations always have an answer", "statement": "For every variogram with positive ranges and every grid with positive cell sizes, simulation_size returns a size in each direction or raises an exception, and simulate and advanced.simulate return a field or raise an exception.", "quantifier": "every documented type, every positive finite range and cell size and every number of cells, in double precision, with or without the padding given", "why_tests_cant": "the conversion of a quotient to int is undefined only for ranges or grids far larger than any test uses, and on the usual machines it yields some number silently", "anchors": ["src/nrlib/variogram/gaussianfield.cpp FindGaussianFieldPadding", "src/nrlib/variogram/gaussianfield.cpp FindNDimPadding", "src/gaussfft.cpp FindGridSizeAfterPadding", "src/nrlib/variogram/gaussianfield.cpp Simulate1DGaussianField"]}
{"id": "C98", "title": "Lengths that make no sense are refused", "statement": "A range that is NaN or infinite, a cell size that is NaN or zero, or a lag that is NaN raises an exception, in variogram() or in the first call that uses it, instead of giving a result.", "quantifier": "every variogram type, every other argument and every state of the generator, in double precision", "why_tests_cant": "a test tries one such value in one function and sees what one compiler makes of an undefined conversion", "anchors": ["src/nrlib/variogram/gaussianfield.cpp FindGaussianFieldPadding", "src/gaussfft.cpp CreateVariogram", "src/nrlib/variogram/variogramtypes.hpp SphVario::Corr1D"]}

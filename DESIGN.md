# Formal model of ChaosMagPy in Rocq (Coq 8.16.1)

## 1. Method

* `/repo` is read as text. Every definition of the model cites the file and the
  lines it models. Nothing of the code is executed.
* Four kinds of files in `rocq/theories/`:
  `Spec_*.v` (small independent specifications), `M_*.v` (the model of the
  code), `P_*.v` (proofs), `Props_*.v` (only theorem statements closed by
  `exact`, non-vacuity examples, and `Print Assumptions`).
* Exceptions are values (`M_Prelude.result`).  Where the code would raise, the
  model returns `Err kind`; where the code would yield NaN the model yields
  `None` (or a guarded value, stated in place).
* A property which the code violates gets a theorem with suffix `_refuted`
  (a concrete witness, computed by the kernel) and, when possible, a theorem
  with suffix `_partial` for the part which does hold.

## 2. Per property: what is modelled, how it is proved

| property | model | proof |
|---|---|---|
| C01-C04, C09 | `M_Time`: integer calendar, 64-bit nanosecond clock with explicit wrap | induction on day steps of an independent `next_date` calendar (`Spec_Calendar`); `lia` for the era arithmetic; refutation by computation |
| C05-C08 | `M_Time`: time conversions over Q | field arithmetic + calendar lemmas |
| C109-C112 | `M_TimeF`, `M_Degree`: the time functions and the inferred degrees with every floating-point operation rounded to double precision (Flocq) | error analysis by absolute and relative rounding errors, monotonicity of rounding |
| C113-C115 | no new model; `Spec_Power`: mean over the sphere as an iterated Riemann integral | orthogonality of sines and cosines; integration by parts with the differential equation of the Legendre functions; bilinearity over a list of elementary fields |
| C116-C118 | `M_RC`: read_csv, `load_RC_datfile`, `save_RC_h5file` as the sequence of file-system states, opening of the RC file in `synth_coeffs_sm`; `Spec_RC`: layout of the text file | case analysis of the lines; list of the states of a run; C85 for the interpolation |
| C10-C17, C73 | `M_Config`: heap of vectors + dictionary + program AST with exceptions | induction over programs (histories) |
| C18, C19 | enumeration loops over lists of `(n,m)` | induction on degree; `nia` |
| C20-C23 | `M_Legendre`: `legendre_poly` as in-place updates of a table `nat -> nat -> R` | loop invariants; Bonnet recursion; ladder derivative |
| C24-C32, C72 | `M_Synth`, `M_SynthArr`: loops over a cursor into the coefficient list, broadcasting (`M_ND`) | loop invariants against a closed sum over `(n,m)`; Coquelicot derivatives/limits; Legendre's equation for C72 |
| C33, C34, C74, C75 | `M_Spline`: design matrix columns written by slices; SciPy's de Boor recursion as an external | loop invariants, linearity of splines, Cox-de Boor recursion |
| C35-C38 | `M_Spectrum`: spectrum loops with slices | list induction, Cauchy-Schwarz |
| C39-C45 | `M_PP`: piecewise polynomials (SciPy `PPoly` evaluate / extend / derivative rules) | case analysis on the interval search, Coquelicot derivatives; refutation by computation |
| C46-C48, C77, C93, C94 | `M_Text`, `M_SHC`, `M_SHCModel`: SHC text as list of characters, decimal fixed-point codec, file system as a map; least-squares fit as a parameter with the contract `Spec_Lsq.least_squares` | codec inversion, induction over rows; polynomial pieces determined by samples; smooth piecewise polynomials are splines; the contract is met by a Gram-Schmidt solver |
| C95, C96 | `M_ChaosSHC` | composition of the SHC theorems with the CHAOS constructor |
| C49-C59, C80 | `M_Coord`: real-valued coordinate functions (`sin`, `cos`, `atan`-based `arctan2`) | `nra`/`field`, trigonometric lemmas |
| C60, C61, C81-C83 | `M_Rotate`: rotation spectra, discrete Fourier transform by its defining sum, Q-response recursion over C | geometric sums over roots of unity, invariants of the recursion |
| C101-C108 | `M_Analysis`: `sh_analysis`, `rotate_gauss`, `rotate_gauss_fft`; Gauss-Legendre nodes as a parameter with the contract `Spec_Analysis.gauss_legendre` | discrete orthogonality of the sampling grid; addition theorem; uniqueness of expansions; the contract is met by the roots of the Legendre polynomials (`P_Gauss`, `P_Gauss2`) |
| C119-C122 | `M_QConst`: `q_response_1D(kind='constant')`, the power series as a loop with a bound on its rounds; `Spec_InductionC`: induction equation in shells of constant conductivity above a perfect conductor | closed forms and power series solve the equation; Wronskians and an energy argument for the denominators; limits for the tolerance |
| C123-C125 | `M_CoordArr`: `transform_points`, `transform_vectors`, `zenith_angle` and everything they call on arrays of any shape (`M_ND`), with `np.stack`, assignment into `[...]` and the reductions over whole arrays; `Spec_CoordArr`: shape and elements of a dipole argument | every intermediate array is a function of the index over a list of input shapes (`P_CoordArr.spec`); the lists are compared as sets with the least-upper-bound lemmas of `P_Bcast` |
| C126, C127 | `M_AzimuthF`: `%` of NumPy (exact fmod, one rounded addition) and the functions built on it | exactness of fmod, Sterbenz, ties to even (Flocq) |
| C128 | `M_GgArr`: geodetic functions with the broadcasting of every operation | the `spec` machinery of `P_CoordArr` |
| C129 | `M_SpectrumF`: `power_spectrum` with every operation rounded, `np.sum` in any order (`fsum`) | counting roundings ((1-u)^k bounds), Flocq relative error |
| C130 | `M_PPF`: `PPoly` evaluation with every operation rounded | backward error analysis of the power loop, then the exact theorems of C30 |
| C131 | `M_SynthF`: the loops of `synth_values` for one point with every operation rounded; Legendre table, cosine, sine and power function as parameters | the loops as an accumulation of terms, each term a product with counted roundings (`terms_near`); then the closed form of C25 |
| C132, C133, C134 | `M_QCall`: `q_response_1D` as called (kind, shape of the periods, C, rho_a, phi, Q) on top of `M_Rotate` (quadratic) and `M_QConst` (constant) | case analysis on kind and shape; polar form of arctan2 and bounds on pi for phi; the quadrant of C from `P_Response2` |
| C135 | `M_Text` (numbers, words, lines) against the grammar of `Spec_Text` | soundness and completeness of the parser by induction on the text |
| C136 | `M_Model.model_spectrum` (`BaseModel.power_spectrum`) | fibres of the spectrum (C35), coefficients (C39-C41), mean square (C113) |
| C137 | `M_SHC.load_shcfile` against `Spec_SHCRead` (comment lines, parameters, table) | fold over the lines, reshape |
| C138 | `load_shcfile` on prefixes of a file, `M_SHCModel.from_shc` | prefix lemma of the parser (only the last word may change), counting rows |
| C139 | `M_Loaders` on damaged files (`Spec_LoadErr`) | layouts of C76-C79, error branches of reshape and `from_bspline` |
| C140 | `M_Matfile.save_matfile` against `Spec_MatContent` (matrices by entries, ppval, list of problems) | index arithmetic of reshape/transpose, `save_inv`, case analysis per stage |
| C141 | error branches of `M_PP.synth_coeffs`, `M_Chaos.call`, `M_CoordArr`, `M_Loaders` | case analysis; fold over the four sources |
| C142 | `M_Chaos.call`, `M_Model.model_values` | C30, C43, values of the coefficients at a time (C64), sum over sources (C62) |
| C143 | `load_matfile` in `M_LoadMat` | induction over nested values, mutual induction over stored data |
| C144 | `fmt`, `memory_usage` in `M_Label` | nearest integer in units of the second digit; comparison with every other two-digit number |
| C145 | `nio_colormap` in `M_Label` | the 256 entries of the table are checked by computation, the parts of the range by arithmetic over all limits |
| C146 | loaders of `M_Loaders` on a prefix of the content | words and numbers of a prefix agree with those of the file up to the last; counting against `reshape_rows`; existence of the accepted cuts by cutting after a number of words or lines |
| C147 | `rotate_gauss` and `synth_values` | degree by degree the fields are gradients of one function on space (polynomials in x, y, z); chain rule along curves of the sphere; poles by the regular form |
| C148 | `rotate_gauss_fft(save_to=...)`, `npz_name`, `env_of` (files by name) with `synth_values_gsm`, `synth_values_sm` | C107 for the matrices, C64 for the coefficients, C147's gradients for the field; refuted for scaled=False by a general formula |
| C149 | `synth_values`, `power_spectrum` with the reference radius as parameter | closed forms of C24/C25 and C35; the factor of each degree cancels |
| C150 | `synth_values` at single points | radial component: a surface function, uniqueness of expansions (C101); southward component: the potential is constant along meridians, hence on the sphere, hence zero; the two equations per degree are independent |
| C151 | names, `os.path.basename/splitext`, text mode, presence of the file for every text loader (M_Names) | `rfind` against a splitting of the path; the loaders factor through the text of the file |
| C152 | `to_shc`, `CHAOS.save_shcfile` with name, loading from the path | the header goes in front of a text that does not depend on it; comment lines are skipped |
| C153 | `from_bspline`, `synth_coeffs`, `synth_values` with deriv | the pieces are polynomials that agree with the spline on their intervals; the spline is K-2 times continuously differentiable (B-spline recursion); gluing lemma; the field is a fixed linear combination of the coefficients |
| C154 | `sh_analysis` for any function | result = (2n+1) times the grid mean of function times harmonic; orthonormality of the harmonics on the grid from C101; Pythagoras |
| C155 | `M_CoordF`: `spherical_to_cartesian`, `cartesian_to_spherical` with rounding | factors (1-u)^k carried through squares, sums, roots; atan(q a) <= q atan a turns the relative error of the root into one of the colatitude; 1-Lipschitz cos and sin |
| C156 | `M_ZenithF`: `zenith_angle` after `sun_position` with rounding; NaN as `None` | absolute errors through the products and the sum; angle from cosine by the half-angle formula and the mean value theorem; a library with errors of one epsilon for which the argument exceeds 1 |
| C157 | `M_DipoleF`: `_dipole_to_unit` with rounding | factors (1-u)^k through squares, sum, root and quotient; absolute errors for the pole |
| C62-C64, C84-C88 | `M_Chaos`: the CHAOS class | induction over source lists, case analysis |
| C65, C66, C89-C92 | `M_Matfile`: reshape/transpose as index maps, the file as a dictionary of arrays | index arithmetic, evaluation is unchanged |
| C67, C68 | `M_Loaders`: loaders from the characters of the file | parsing lemmas, B-spline theorems |
| C69-C71, C97-C100 | `M_Plot`: keyword dictionaries, figures as lists of panels | induction over dictionaries and panel lists, composition with C78 |
| C76, C78, C79 | `M_FromSpline`, `M_Model` | Taylor coefficients of splines; composition of C30 and C39 |

A claim with status `partial` in `MANIFEST.json` has either a theorem with
suffix `_refuted` (the code does not have the property as stated; the note says
where) or `_partial` (the note says what is missing).

## 3. Trusted base

1. **Coq 8.16.1's kernel** (with `vm_compute`), and `coqc`'s parser/printer as far
   as reading the statements is concerned.  No axioms of our own, no `Admitted`,
   no switched-off checks, no functors or module types, no plugins.
2. **Axioms listed by `Print Assumptions`.**  Every `Props_*.v` file ends with
   `Print Assumptions` for each theorem; `ASSUMPTIONS.md` holds the output per
   theorem.  Only these axioms of the standard library occur:
   `ClassicalDedekindReals.sig_forall_dec`, `ClassicalDedekindReals.sig_not_dec`
   (the construction of R), `FunctionalExtensionality.functional_extensionality_dep`,
   and `Classical_Prop.classic`.  The theorems on the calendar, the configuration, the SHC
   text codec and keyword dictionaries are closed under the global context.
3. **The reading of the code**: that the definitions in `M_*.v` do what the cited
   lines of `/repo` do.  They were written by hand from the text; nothing was
   executed.  The mutation log `seeded/LOG.jsonl` shows which deviations the theorems
   detect.
4. **External libraries**, modelled from knowledge of their documented behaviour:
   NumPy (broadcasting, reshape, transpose, slices, `datetime64[ns]` arithmetic,
   `np.fft` by the defining sum, `np.argsort` by its contract, `np.loadtxt`-like
   parsing of decimal numbers), SciPy (`PPoly`, `BSpline`, `PPoly.from_spline`,
   `interp1d`; `make_lsq_spline` by the contract "minimises the sum of squares";
   `np.polynomial.legendre.leggauss` by the contract "integrates polynomials up to degree 2n-1
   exactly"),
   `json` (dump followed by load is the identity on JSON values), `hdf5storage`/`npz`
   (arrays of two or more dimensions come back unchanged; writing a variable keeps the
   others), `calendar`, `datetime`, Matplotlib (accepts the arguments it is given).
5. **Numbers.**  Arithmetic is exact: Q for time conversions and file numbers, R
   (Coquelicot's C for complex numbers) elsewhere.  Floating-point rounding is
   modelled only for the time conversions, the inferred degrees, azimuths and local times,
   power spectra, the coefficients inside the model period, the synthesised field, the Cartesian/spherical conversion, the zenith angle and the dipole axis (`M_TimeF`, `M_Degree`, `M_AzimuthF`, `M_CoordF`, `M_ZenithF`, `M_DipoleF`,
   `M_SpectrumF`, `M_PPF`, `M_SynthF`, with Flocq's rounding function); overflow, infinities and signed zeros
   are not modelled; NaN is `None` where the code
   creates or propagates it on purpose.  Division by zero: statements are restricted to
   non-degenerate inputs (positive radius, nonzero denominators).  The 64-bit wrap-around of
   datetime arithmetic and the eight decimals of SHC files are modelled.

### What is modelled

| file | modelled | not modelled |
|---|---|---|
| `data_utils.py` | `mjd2000`, `timestamp`, `is_leap_year`, `dyear_to_mjd`, `mjd_to_dyear`, `load_shcfile`, `save_shcfile`, `gauss_units`, `load_matfile`, `memory_usage`, `load_RC_datfile` and `save_RC_h5file` (with file paths) | download of the RC file, pandas output of the time functions |
| `config_utils.py` | all of `BasicConfig` and the validators | the text of `__str__` and of error messages |
| `model_utils.py` | everything | prints and warnings |
| `coordinate_utils.py` | everything | the magnitude of numerical errors, except for azimuths, local time (C126, C127), the Cartesian/spherical conversion (C155), the zenith angle for a given sun (C156) and the dipole axis (C157) |
| `chaos.py` | `Base`, `BaseModel`, `CHAOS`, all loaders | `__str__`; a file that exists but cannot be opened or decoded |
| `plot_utils.py` | `plot_timeseries`, `plot_maps`, `plot_power_spectrum`, `defaultkeys`, `fmt`, `nio_colormap` | drawing |

Simplifications of each definition are stated in its comment; those shared by a
file in the comment at its head.

## 4. Mutation testing

`seeded/LOG.jsonl` has one line per seeded error: the definition, the edit, the
claim it breaks and the theorems that failed.  Survivors led to stronger
theorems (field `tightened`).

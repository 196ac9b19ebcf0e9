{"id": "C01", "title": "Leap-year test agrees with the calendar", "statement": "is_leap_year(y) is True exactly when walking the Gregorian calendar day by day from 1 January y reaches 1 January y+1 after 366 days, and False exactly when it takes 365 days; a non-integer dtype raises TypeError.", "quantifier": "every integer year (positive, zero, negative)", "why_tests_cant": "the century/400-year exceptions and negative years form an infinite family; a unit test samples a handful of years", "anchors": ["chaosmagpy/data_utils.py:is_leap_year"]}
{"id": "C02", "title": "mjd2000 counts calendar days exactly", "statement": "For every valid Gregorian date whose distance to 2000-01-01 fits the nanosecond clock, mjd2000(y,m,d,h,mi,s,us,ns) equals the signed number of one-day calendar steps from 2000-01-01 to that date plus the exact fraction of the day given by h,mi,s,us,ns.", "quantifier": "every valid date and every time-of-day offset within the representable range", "why_tests_cant": "there are hundreds of millions of date/time combinations and the leap pattern has a 400-year period", "anchors": ["chaosmagpy/data_utils.py:mjd2000"]}
{"id": "C03", "title": "mjd2000 rejects dates that do not exist", "statement": "mjd2000 raises (never returns a number) when the month is outside 1..12 or the day does not exist in that month of that year, e.g. 29 February of a non-leap year.", "quantifier": "every (year, month, day) triple that is not a calendar date", "why_tests_cant": "validity of the 29th of February depends on the year through the whole leap rule", "anchors": ["chaosmagpy/data_utils.py:mjd2000"]}
{"id": "C04", "title": "mjd2000 preserves chronological order", "statement": "If one valid instant precedes another in (year, month, day, time of day) order, its mjd2000 is strictly smaller.", "quantifier": "every pair of valid instants in the representable range with the time of day in its normal range", "why_tests_cant": "order preservation is a statement about all pairs, across month, year and century boundaries", "anchors": ["chaosmagpy/data_utils.py:mjd2000"]}
{"id": "C05", "title": "Decimal-year conversion round-trips (leap years on)", "statement": "mjd_to_dyear(dyear_to_mjd(t)) = t and dyear_to_mjd(mjd_to_dyear(x)) = x in exact arithmetic whenever the calendar year concerned is in the representable range.", "quantifier": "every rational time in range", "why_tests_cant": "round-tripping must hold at every instant including the boundaries of every year", "anchors": ["chaosmagpy/data_utils.py:dyear_to_mjd", "chaosmagpy/data_utils.py:mjd_to_dyear"]}
{"id": "C06", "title": "Decimal-year conversion round-trips (leap years off)", "statement": "With leap_year=False the two conversions are the mutually inverse affine maps t -> (t-2000)*365.25 and x -> x/365.25+2000.", "quantifier": "every time", "why_tests_cant": "identity over an infinite domain", "anchors": ["chaosmagpy/data_utils.py:dyear_to_mjd", "chaosmagpy/data_utils.py:mjd_to_dyear"]}
{"id": "C07", "title": "Decimal years carry the calendar year and are monotone", "statement": "The integer part of mjd_to_dyear(x) is the calendar year containing day floor(x); both conversions are strictly increasing, and 1 January 0h of year y corresponds to the decimal year exactly y.", "quantifier": "every time in range, every pair of times in range", "why_tests_cant": "an off-by-one at any of the year boundaries breaks it; tests visit few boundaries", "anchors": ["chaosmagpy/data_utils.py:dyear_to_mjd", "chaosmagpy/data_utils.py:mjd_to_dyear"]}
{"id": "C08", "title": "timestamp inverts mjd2000", "statement": "timestamp(mjd2000(instant)) is the instant, for every instant with nanosecond resolution in the representable range (exact arithmetic), and mjd2000(timestamp(x)) differs from x by less than one nanosecond.", "quantifier": "every instant / every time in range", "why_tests_cant": "2^64 instants", "anchors": ["chaosmagpy/data_utils.py:timestamp", "chaosmagpy/data_utils.py:mjd2000"]}
{"id": "C09", "title": "mjd2000 is right for every four-digit year", "statement": "For every valid date with a four-digit year mjd2000 returns the day count from 2000-01-01.", "quantifier": "every valid date in years 1000..9999", "why_tests_cant": "the nanosecond clock wraps silently far from 2000; tests only use recent dates", "anchors": ["chaosmagpy/data_utils.py:mjd2000"]}
{"id": "C10", "title": "Configuration values are always valid", "statement": "After any sequence of assignments, resets, full resets, file loads and (nested, possibly failing) context blocks starting from the defaults, the configuration has exactly the default keys and every value has passed the checker of its key (radii are floats, vectors have their prescribed length, integer entries are integers, ...).", "quantifier": "every history of configuration operations, including failing ones", "why_tests_cant": "unbounded histories with exceptions in the middle", "anchors": ["chaosmagpy/config_utils.py:BasicConfig", "chaosmagpy/config_utils.py:DEFAULTS"]}
{"id": "C11", "title": "A rejected assignment changes nothing", "statement": "If assigning a value to a configuration key raises (unknown key, bad value) or resetting an unknown key raises, every configuration entry is what it was before.", "quantifier": "every configuration, key and value", "why_tests_cant": "all values of all types", "anchors": ["chaosmagpy/config_utils.py:BasicConfig.__setitem__", "chaosmagpy/config_utils.py:BasicConfig.reset"]}
{"id": "C12", "title": "Assignment stores the canonical value and touches one key", "statement": "After a successful assignment of v to key k, reading k gives the checker's canonical form of v, re-assigning what was read changes nothing, and every other key reads as before.", "quantifier": "every configuration, key and accepted value", "why_tests_cant": "all values of all types", "anchors": ["chaosmagpy/config_utils.py:BasicConfig.__setitem__"]}
{"id": "C13", "title": "Context manager restores on normal exit", "statement": "After a context block finishes without an exception the overridden keys have the values they had before the block and all other keys have the values the body left them with; blocks nest.", "quantifier": "every configuration, override set, and body program", "why_tests_cant": "arbitrary nested bodies", "anchors": ["chaosmagpy/config_utils.py:BasicConfig.context"]}
{"id": "C14", "title": "Context manager restores when the body raises", "statement": "The overridden keys are restored also when the body of the context block raises.", "quantifier": "every configuration, override set, and body program", "why_tests_cant": "needs every raising point of every body", "anchors": ["chaosmagpy/config_utils.py:BasicConfig.context"]}
{"id": "C15", "title": "Loading a configuration file is all-or-nothing", "statement": "If loading a configuration file raises on some entry, the configuration is unchanged.", "quantifier": "every configuration and every file content", "why_tests_cant": "every position of the first bad entry", "anchors": ["chaosmagpy/config_utils.py:BasicConfig.load"]}
{"id": "C16", "title": "Configuration save/load round-trip", "statement": "Saving a reachable configuration to JSON and loading the file into any valid configuration reproduces the saved configuration on every key and raises nothing.", "quantifier": "every valid configuration", "why_tests_cant": "all combinations of values", "anchors": ["chaosmagpy/config_utils.py:BasicConfig.save", "chaosmagpy/config_utils.py:BasicConfig.load"]}
{"id": "C17", "title": "Reset restores the factory defaults", "statement": "After reset(key) (or fullreset) the key (or every key) reads as the documented default, whatever happened before, including in-place modification of arrays obtained from the configuration.", "quantifier": "every history", "why_tests_cant": "aliasing of default arrays only shows after particular histories", "anchors": ["chaosmagpy/config_utils.py:BasicConfig.reset", "chaosmagpy/config_utils.py:BasicConfig.fullreset"]}
{"id": "C18", "title": "Coefficient layout is a bijection", "statement": "The order g10,g11,h11,g20,... used by files, spectra and synthesis places (n,m) at one well-defined position (n^2-1 for g_n^0, n^2-2+2m / n^2-1+2m for g_n^m / h_n^m), every position below nmax(nmax+2) is hit exactly once, and the degree range is recovered from the number of coefficients.", "quantifier": "every degree and order, every nmax", "why_tests_cant": "infinite family of sizes", "anchors": ["chaosmagpy/data_utils.py:save_shcfile", "chaosmagpy/model_utils.py:synth_values", "chaosmagpy/model_utils.py:power_spectrum"]}
{"id": "C19", "title": "Coefficient counts and inferred degree are consistent", "statement": "design_gauss produces exactly as many columns as synth_values expects coefficients for the same nmin,nmax,mmax, and the degree synth_values infers from the number of coefficients is the one they were built with.", "quantifier": "every nmin <= nmax and mmax", "why_tests_cant": "three unbounded integer parameters with branch mmax<nmin", "anchors": ["chaosmagpy/model_utils.py:design_gauss", "chaosmagpy/model_utils.py:synth_values"]}
{"id": "C20", "title": "Legendre table holds Schmidt functions", "statement": "legendre_poly(nmax, theta)[n, m] is the Schmidt semi-normalised associated Legendre function P_n^m(cos theta) for every 0 <= m <= n <= nmax.", "quantifier": "every nmax >= 1, n, m and every colatitude", "why_tests_cant": "an in-place three-term recursion over unbounded degree; tests compare a few degrees at a few angles", "anchors": ["chaosmagpy/model_utils.py:legendre_poly"]}
{"id": "C21", "title": "Legendre table holds the colatitude derivatives", "statement": "legendre_poly(nmax, theta)[m, n+1] is the derivative with respect to theta of entry [n, m].", "quantifier": "every nmax >= 1, n, m and every colatitude", "why_tests_cant": "same as C20", "anchors": ["chaosmagpy/model_utils.py:legendre_poly"]}
{"id": "C22", "title": "Schmidt normalisation", "statement": "For each degree n the squares of P_n^m over m = 0..n sum to one, so no entry exceeds 1 in absolute value.", "quantifier": "every nmax, n and colatitude", "why_tests_cant": "all angles and degrees", "anchors": ["chaosmagpy/model_utils.py:legendre_poly"]}
{"id": "C23", "title": "Parity under reflection at the equator", "statement": "Replacing theta by 180-theta multiplies entry [n, m] by (-1)^(n+m), and at the north pole entry [n, m] is 1 for m=0 and 0 otherwise.", "quantifier": "every nmax, n, m and colatitude", "why_tests_cant": "all angles and degrees", "anchors": ["chaosmagpy/model_utils.py:legendre_poly"]}
{"id": "C24", "title": "Synthesis equals design matrix times coefficients", "statement": "synth_values(coeffs, ...) equals the three design_gauss matrices for the same nmin,nmax,mmax,source applied to coeffs at each point.", "quantifier": "every coefficient vector, degree range, source and position off the poles", "why_tests_cant": "two independent loops with separate counters that must stay aligned at every degree and order", "anchors": ["chaosmagpy/model_utils.py:synth_values", "chaosmagpy/model_utils.py:design_gauss"]}
{"id": "C25", "title": "Synthesised field is minus the gradient of the potential", "statement": "synth_values returns (-dV/dr, -(1/r)dV/dtheta, -(1/(r sin theta))dV/dphi) of the internal (resp. external) spherical harmonic potential defined by the coefficients.", "quantifier": "every coefficient vector, degree range, source, and position off the poles with r > 0", "why_tests_cant": "a statement about derivatives at all points", "anchors": ["chaosmagpy/model_utils.py:synth_values"]}
{"id": "C26", "title": "Synthesis is linear in the coefficients", "statement": "synth_values(a*x + b*y) = a*synth_values(x) + b*synth_values(y); zero coefficients give the zero field.", "quantifier": "every pair of coefficient vectors, scalars, positions, sources", "why_tests_cant": "all inputs", "anchors": ["chaosmagpy/model_utils.py:synth_values"]}
{"id": "C27", "title": "Pole values are the limits", "statement": "At theta = 0 and theta = 180 synth_values returns finite values equal to the limits along the meridian phi as theta approaches the pole.", "quantifier": "every coefficient vector, degree range, source, radius and longitude", "why_tests_cant": "limit statement", "anchors": ["chaosmagpy/model_utils.py:synth_values"]}
{"id": "C28", "title": "Truncation equals zero padding", "statement": "Synthesising with nmax smaller than what the coefficients provide equals synthesising with all coefficients above nmax set to zero; coefficients starting at nmin > 1 equal the full vector padded with zeros below nmin.", "quantifier": "every coefficient vector and degree range", "why_tests_cant": "all sizes", "anchors": ["chaosmagpy/model_utils.py:synth_values"]}
{"id": "C29", "title": "Colatitudes outside [0, 180] are rejected", "statement": "synth_values raises ValueError whenever some colatitude lies outside [0, 180] degrees.", "quantifier": "every array of colatitudes", "why_tests_cant": "the check is on the min/max of the whole array", "anchors": ["chaosmagpy/model_utils.py:synth_values"]}
{"id": "C30", "title": "Array and grid evaluation is pointwise", "statement": "Element i of a synthesis over broadcast arrays equals the synthesis of the i-th point alone, and grid=True equals evaluating every (theta, phi) pair of the outer product.", "quantifier": "every shape and every element", "why_tests_cant": "all shapes", "anchors": ["chaosmagpy/model_utils.py:synth_values"]}
{"id": "C31", "title": "Longitude periodicity and zonal fields", "statement": "Adding 360 degrees to phi changes nothing; if only m=0 coefficients are nonzero the field does not depend on phi and B_phi = 0.", "quantifier": "every input", "why_tests_cant": "all inputs", "anchors": ["chaosmagpy/model_utils.py:synth_values"]}
{"id": "C32", "title": "Input errors of the synthesis are reported", "statement": "Unknown source, nmax < nmin, too few coefficients for the requested degree and incompatible shapes each raise; no number is returned.", "quantifier": "every ill-formed input", "why_tests_cant": "every ill-formed input", "anchors": ["chaosmagpy/model_utils.py:synth_values", "chaosmagpy/model_utils.py:design_gauss"]}
{"id": "C33", "title": "Design matrix predicts the time-dependent field", "statement": "design_matrix times the stacked spline (and static) parameters equals the design_gauss prediction with the coefficients evaluated from the splines at each datum; the dynamic columns are ordered coefficient-major and the static columns come last.", "quantifier": "every number of data, segments, degrees", "why_tests_cant": "unbounded sizes with two nested loops and a column counter", "anchors": ["chaosmagpy/model_utils.py:design_matrix"]}
{"id": "C34", "title": "Spline break augmentation", "statement": "augment_breaks(breaks, k) repeats both end breaks so that the result has len(breaks)+2(k-1) entries, is sorted whenever the breaks are sorted and keeps the interior breaks in order.", "quantifier": "every break list and every order k >= 1", "why_tests_cant": "all sizes", "anchors": ["chaosmagpy/model_utils.py:augment_breaks"]}
{"id": "C35", "title": "Power spectrum is the Lowes-Mauersberger spectrum", "statement": "power_spectrum(coeffs, r)[n-1] = (n+1) (a/r)^(2n+4) sum of squares of the degree-n coefficients (internal), n (r/a)^(2n-2) ... (external), and the tor variant; the blocks partition the coefficients.", "quantifier": "every coefficient vector and radius", "why_tests_cant": "slicing by running counters over unbounded degrees", "anchors": ["chaosmagpy/model_utils.py:power_spectrum"]}
{"id": "C36", "title": "Power spectrum laws", "statement": "The spectrum is non-negative, zero exactly for degrees whose coefficients vanish, scales quadratically with the coefficients, its degree-n entry depends only on the coefficients of degree n, and the internal spectrum at r' is (r/r')^(2n+4) times that at r.", "quantifier": "every coefficient vector and radius", "why_tests_cant": "all inputs", "anchors": ["chaosmagpy/model_utils.py:power_spectrum"]}
{"id": "C37", "title": "Degree correlation is a correlation", "statement": "degree_correlation lies in [-1, 1], is symmetric, equals 1 of a model with itself, is invariant under positive scaling and NaN exactly when a degree has no power; mismatched or 2-D inputs raise.", "quantifier": "every pair of coefficient vectors", "why_tests_cant": "Cauchy-Schwarz over all inputs", "anchors": ["chaosmagpy/model_utils.py:degree_correlation"]}
{"id": "C38", "title": "Sensitivity of identical models vanishes", "statement": "sensitivity(x, x) is zero, and the result is invariant under scaling both models by the same positive factor; mismatched or multi-dimensional inputs raise.", "quantifier": "every pair of coefficient vectors", "why_tests_cant": "all inputs", "anchors": ["chaosmagpy/model_utils.py:sensitivity"]}
{"id": "C39", "title": "Coefficients inside the model period follow the stored polynomial", "statement": "For a time inside [first break, last break] synth_coeffs evaluates the polynomial piece whose half-open interval contains it (the last interval is closed).", "quantifier": "every break list, piece, coefficient and time", "why_tests_cant": "all times including break points", "anchors": ["chaosmagpy/chaos.py:Base.synth_coeffs"]}
{"id": "C40", "title": "Time derivatives are per year", "statement": "synth_coeffs(t, deriv=d) is the d-th derivative of the piecewise polynomial with time measured in years of 365.25 days, for every time inside an interval (at the last break: when no requested time lies outside the model period).", "quantifier": "every model, time, derivative order", "why_tests_cant": "a statement about derivatives", "anchors": ["chaosmagpy/chaos.py:Base.synth_coeffs"]}
{"id": "C41", "title": "Constant, linear and 'off' extrapolation", "statement": "Outside the model period 'off' yields NaN for exactly the outside times, 'constant' yields the value at the nearest end, 'linear' the tangent at the nearest end; inside times are unaffected.", "quantifier": "every model, time array and extrapolation keyword", "why_tests_cant": "all times and models", "anchors": ["chaosmagpy/chaos.py:Base.synth_coeffs", "chaosmagpy/chaos.py:Base._extrapolate"]}
{"id": "C42", "title": "Spline extrapolation continues the end piece", "statement": "extrapolate='spline' (and 'quadratic', 'cubic') continues the first/last polynomial piece (its Taylor polynomial of that degree) outside the model period.", "quantifier": "every model and time", "why_tests_cant": "all orders", "anchors": ["chaosmagpy/chaos.py:Base.synth_coeffs"]}
{"id": "C43", "title": "The value at one time does not depend on the other times", "statement": "synth_coeffs(array)[i] equals synth_coeffs(array[i]).", "quantifier": "every model, time array, derivative and extrapolation keyword", "why_tests_cant": "extrapolation rewrites the piecewise polynomial only when some time is outside", "anchors": ["chaosmagpy/chaos.py:Base.synth_coeffs"]}
{"id": "C44", "title": "Model construction normalises its pieces", "statement": "Base(name, breaks, order, coeffs) keeps the last min(order, coeffs.shape[0]) polynomial rows, turns a single break into a zero-length static interval and leaves an empty model (no coeffs) unusable: evaluating it raises ValueError.", "quantifier": "every constructor input", "why_tests_cant": "all inputs", "anchors": ["chaosmagpy/chaos.py:Base.__init__", "chaosmagpy/chaos.py:Base.synth_coeffs"]}
{"id": "C45", "title": "Unknown extrapolation methods are reported", "statement": "An extrapolation string other than the documented ones raises ValueError.", "quantifier": "every string and every time array", "why_tests_cant": "the keyword is only looked at when some time is outside", "anchors": ["chaosmagpy/chaos.py:Base.synth_coeffs"]}
{"id": "C46", "title": "SHC export/import of a static or order-1 model", "statement": "from_shc(to_shc(model)) for a piecewise constant model reproduces the coefficients of every piece and the breaks.", "quantifier": "every order-1 model", "why_tests_cant": "all sizes", "anchors": ["chaosmagpy/chaos.py:BaseModel.to_shc", "chaosmagpy/chaos.py:BaseModel.from_shc"]}
{"id": "C47", "title": "SHC file round-trip", "statement": "load_shcfile(save_shcfile(time, coeffs, ...)) returns the coefficients rounded to the eight decimals written, in the same order and shape, the times rounded to eight decimals of a decimal year, and the parameters (nmin, nmax, N, order, step).", "quantifier": "every coefficient table, time list and header made of comment lines", "why_tests_cant": "all sizes and all numbers", "anchors": ["chaosmagpy/data_utils.py:save_shcfile", "chaosmagpy/data_utils.py:load_shcfile"]}
{"id": "C48", "title": "A failing SHC save does not damage an existing file", "statement": "If save_shcfile raises, a file already present at that path is unchanged.", "quantifier": "every input and every failure point", "why_tests_cant": "failure points inside the write loop", "anchors": ["chaosmagpy/data_utils.py:save_shcfile"]}
{"id": "C49", "title": "Calendar-independent azimuth centring", "statement": "center_azimuth(phi) lies in (-180, 180], differs from phi by a multiple of 360 and is idempotent.", "quantifier": "every angle", "why_tests_cant": "all reals", "anchors": ["chaosmagpy/coordinate_utils.py:center_azimuth"]}
{"id": "C50", "title": "Local time", "statement": "local_time(mjd, phi) lies in [0, 24), equals UT at phi=0 and advances by one hour per 15 degrees (mod 24).", "quantifier": "every time and longitude", "why_tests_cant": "all reals", "anchors": ["chaosmagpy/coordinate_utils.py:local_time"]}
{"id": "C51", "title": "Spherical/Cartesian round trip", "statement": "cartesian_to_spherical inverts spherical_to_cartesian for r > 0, 0 < theta < 180, -180 < phi <= 180, and spherical_to_cartesian inverts cartesian_to_spherical off the z-axis; the radius is the Euclidean norm.", "quantifier": "every point", "why_tests_cant": "all reals with quadrant cases", "anchors": ["chaosmagpy/coordinate_utils.py:spherical_to_cartesian", "chaosmagpy/coordinate_utils.py:cartesian_to_spherical"]}
{"id": "C52", "title": "Solar zenith angle", "statement": "zenith_angle lies in [0, 180], is 0 at the sub-solar point, and antipodal points have supplementary zenith angles.", "quantifier": "every time and place (given any sun position)", "why_tests_cant": "all reals", "anchors": ["chaosmagpy/coordinate_utils.py:zenith_angle"]}
{"id": "C53", "title": "Dipole specifications agree", "statement": "Giving the dipole to dipole_to_vec as one array [g10, g11, h11], as a tuple of the three coefficients, as (theta, phi) of the north magnetic pole or through the configuration yields the same unit vector, which points opposite to the dipole moment (g11, h11, g10); igrf_dipole() is such a unit vector; other numbers of arguments and unknown epochs raise.", "quantifier": "every nonzero dipole", "why_tests_cant": "all reals", "anchors": ["chaosmagpy/coordinate_utils.py:_dipole_to_unit", "chaosmagpy/coordinate_utils.py:dipole_to_vec", "chaosmagpy/coordinate_utils.py:igrf_dipole"]}
{"id": "C54", "title": "Base vectors are orthonormal and right-handed", "statement": "basevectors_mag, basevectors_gsm, basevectors_sm and basevectors_use return right-handed orthonormal triples whenever their defining directions are not parallel; basevectors_use raises at the poles.", "quantifier": "every dipole, sun position and location", "why_tests_cant": "all reals", "anchors": ["chaosmagpy/coordinate_utils.py:basevectors_mag", "chaosmagpy/coordinate_utils.py:basevectors_gsm", "chaosmagpy/coordinate_utils.py:basevectors_sm", "chaosmagpy/coordinate_utils.py:basevectors_use"]}
{"id": "C55", "title": "Rotation of positions is invertible", "statement": "geo_to_base followed by geo_to_base with inverse=True returns the original direction; angles between directions are preserved.", "quantifier": "every orthonormal base and direction", "why_tests_cant": "all reals", "anchors": ["chaosmagpy/coordinate_utils.py:geo_to_base", "chaosmagpy/coordinate_utils.py:transform_points"]}
{"id": "C56", "title": "Rotation of vectors preserves length and inverts", "statement": "transform_vectors preserves the radial component and the horizontal length of a vector and is undone by inverse=True at the transformed location; unknown references raise.", "quantifier": "every base, location and vector", "why_tests_cant": "all reals", "anchors": ["chaosmagpy/coordinate_utils.py:matrix_geo_to_base", "chaosmagpy/coordinate_utils.py:transform_vectors"]}
{"id": "C57", "title": "Geodetic to geocentric conversion", "statement": "gg_to_geo(h, beta) is the point obtained from the foot point of the WGS84-type ellipsoid with latitude normal by going h along the normal; the vector rotation preserves length and inverts.", "quantifier": "every height and geodetic latitude", "why_tests_cant": "all reals", "anchors": ["chaosmagpy/coordinate_utils.py:gg_to_geo", "chaosmagpy/coordinate_utils.py:basevectors_gg"]}
{"id": "C58", "title": "Geocentric to geodetic conversion inverts", "statement": "geo_to_gg(gg_to_geo(h, beta)) = (h, beta).", "quantifier": "every height and latitude in the domain", "why_tests_cant": "all reals, nested radicals", "anchors": ["chaosmagpy/coordinate_utils.py:geo_to_gg"]}
{"id": "C59", "title": "Sun position validity check", "statement": "sun_position raises for times outside the validity range 1901-2099 and otherwise returns theta in [0,180], phi in (-180,180].", "quantifier": "every time", "why_tests_cant": "all times", "anchors": ["chaosmagpy/coordinate_utils.py:sun_position"]}
{"id": "C60", "title": "Rotation spectrum scaling", "statement": "synth_rotate_gauss gives the same matrices whether the one-sided spectrum was stored with or without the factor two, provided the flag says which.", "quantifier": "every frequency list, spectrum and time", "why_tests_cant": "all inputs and flag representations", "anchors": ["chaosmagpy/coordinate_utils.py:synth_rotate_gauss", "chaosmagpy/coordinate_utils.py:rotate_gauss_fft"]}
{"id": "C61", "title": "Zero frequency induces nothing", "statement": "q_response is 0 at zero frequency, and depends on frequency only elementwise.", "quantifier": "every frequency list and conductivity model", "why_tests_cant": "all inputs", "anchors": ["chaosmagpy/coordinate_utils.py:q_response"]}
{"id": "C62", "title": "CHAOS call is the sum of its sources", "statement": "CHAOS.__call__ returns the sum of the fields of the selected sources; the order and duplication of source names does not matter; 'internal', 'external' and None are the documented unions.", "quantifier": "every source list and model", "why_tests_cant": "all subsets, orders and duplications", "anchors": ["chaosmagpy/chaos.py:CHAOS.__call__"]}
{"id": "C63", "title": "Unknown source names are reported", "statement": "CHAOS.__call__ raises when a source name is not a known source.", "quantifier": "every source list", "why_tests_cant": "all strings", "anchors": ["chaosmagpy/chaos.py:CHAOS.__call__"]}
{"id": "C64", "title": "External/induced decomposition", "statement": "synth_values_gsm(source='all') is the sum of source='external' and source='internal'; likewise for synth_values_sm with rc_e / rc_i routed to the external / induced parts only.", "quantifier": "every time, position and model", "why_tests_cant": "all inputs", "anchors": ["chaosmagpy/chaos.py:CHAOS.synth_values_gsm", "chaosmagpy/chaos.py:CHAOS.synth_values_sm"]}
{"id": "C65", "title": "MAT-file export/import keeps the internal model", "statement": "load_CHAOS_matfile(save_matfile(model)) reproduces the time-dependent and static coefficient arrays, breaks and order.", "quantifier": "every model", "why_tests_cant": "transpose/reshape index arithmetic over all shapes", "anchors": ["chaosmagpy/chaos.py:CHAOS.save_matfile", "chaosmagpy/chaos.py:load_CHAOS_matfile"]}
{"id": "C66", "title": "MAT-file export/import keeps the external model", "statement": "load_CHAOS_matfile(save_matfile(model)) reproduces all SM and GSM coefficients.", "quantifier": "every model", "why_tests_cant": "all coefficient values", "anchors": ["chaosmagpy/chaos.py:CHAOS.save_matfile", "chaosmagpy/chaos.py:load_CHAOS_matfile"]}
{"id": "C67", "title": "IGRF loader interpolates the epochs", "statement": "The model returned by load_IGRF_txtfile passes through the tabulated coefficients at every epoch, is linear in between and ends five years after the last epoch at last + 5*SV.", "quantifier": "every well-formed table", "why_tests_cant": "all tables", "anchors": ["chaosmagpy/chaos.py:load_IGRF_txtfile"]}
{"id": "C68", "title": "Spline-file loaders keep every coefficient", "statement": "The reshape and zero-padding of load_gufm1/CALS7K/CovObs puts each file value at the documented (spline, coefficient) place and gives zero where the file has none.", "quantifier": "every file content", "why_tests_cant": "all sizes", "anchors": ["chaosmagpy/chaos.py:load_gufm1_txtfile", "chaosmagpy/chaos.py:load_CALS7K_txtfile", "chaosmagpy/chaos.py:load_CovObs_txtfile"]}
{"id": "C69", "title": "Plot defaults never override the user", "statement": "defaultkeys(defaults, keywords) keeps every user value that is not None and fills the rest with the defaults.", "quantifier": "every pair of dictionaries", "why_tests_cant": "all key sets", "anchors": ["chaosmagpy/plot_utils.py:defaultkeys"]}
{"id": "C70", "title": "Plotting does not change the data", "statement": "plot_power_spectrum leaves the spectrum passed by the caller unchanged.", "quantifier": "every spectrum", "why_tests_cant": "all arrays", "anchors": ["chaosmagpy/plot_utils.py:plot_power_spectrum"]}
{"id": "C71", "title": "Units label", "statement": "gauss_units(d) is nT for d=0, nT/yr for d=1 and names the power d of the year otherwise; different orders have different labels.", "quantifier": "every derivative order", "why_tests_cant": "infinitely many orders", "anchors": ["chaosmagpy/data_utils.py:gauss_units"]}
{"id": "C72", "title": "Synthesised field is divergence-free", "statement": "The field returned by synth_values has zero divergence in spherical coordinates at every point off the axis (so the potential solves Laplace's equation).", "quantifier": "every coefficient vector, degree range, source and point off the axis", "why_tests_cant": "a differential identity at all reals", "anchors": ["chaosmagpy/model_utils.py:synth_values"]}
{"id": "C73", "title": "The whole mapping interface validates", "statement": "Whatever operation of the configuration dictionary is used to store a value, including the inherited dict methods such as update, the stored value has passed the check of its key.", "quantifier": "every history of mapping operations", "why_tests_cant": "unbounded histories over the whole inherited interface", "anchors": ["chaosmagpy/config_utils.py:BasicConfig"]}
{"id": "C74", "title": "Collocation rows are a partition of unity", "statement": "For increasing breaks and knots from augment_breaks(breaks, order), each row of colloc_matrix(x, knots, order) inside the breaks (end points included) is non-negative, sums to one and has at most `order` consecutive nonzero entries; rows of derivatives sum to zero; outside the breaks rows are NaN below derivative `order` and zero from there on.", "quantifier": "every break list, spline order, derivative and evaluation point", "why_tests_cant": "the de Boor recursion over every knot vector and real argument", "anchors": ["chaosmagpy/model_utils.py:colloc_matrix", "chaosmagpy/model_utils.py:augment_breaks"]}
{"id": "C75", "title": "Collocation matrices hold the B-splines and their derivatives", "statement": "colloc_matrix(x, augment_breaks(breaks, order), order) has in column m the m-th B-spline of the Cox-de Boor recursion on these knots, evaluated at x; with deriv=nu its nu-th derivative (per day) on the interval of x (right-hand derivative at a break).", "quantifier": "every strictly increasing break vector, order >= 1, time inside the period, derivative order", "why_tests_cant": "all knots and orders; an algorithm against the recursive definition", "anchors": ["chaosmagpy/model_utils.py:colloc_matrix", "chaosmagpy/model_utils.py:augment_breaks"]}
{"id": "C76", "title": "Conversion from B-splines to piecewise polynomials is exact", "statement": "pp_from_bspline / BaseModel.from_bspline return the distinct knots as breaks and polynomials equal to the spline at every time between the first and last knot.", "quantifier": "every spline with full end multiplicity", "why_tests_cant": "all knots, orders, coefficients and times", "anchors": ["chaosmagpy/model_utils.py:pp_from_bspline", "chaosmagpy/chaos.py:BaseModel.from_bspline"]}
{"id": "C77", "title": "SHC export of order two and more is lossless", "statement": "to_shc samples a continuous model of order K >= 2 at K evenly spaced sites per interval such that every (K-1)-th site is a break, and a continuous piecewise polynomial of the same order and breaks through the samples is the model itself.", "quantifier": "every continuous model of order >= 2", "why_tests_cant": "all orders, breaks, coefficients", "anchors": ["chaosmagpy/chaos.py:BaseModel.to_shc", "chaosmagpy/chaos.py:BaseModel.from_shc"]}
{"id": "C78", "title": "Model field values", "statement": "BaseModel.synth_values returns at each time of the model period the field of the coefficients of that time (degree min(nmax, model degree)), or with deriv its time derivative per year; without extrapolation NaN exactly outside the period; documented input succeeds with the broadcast shape.", "quantifier": "every model, array of positions and times, nmax, deriv", "why_tests_cant": "all shapes, times and degrees", "anchors": ["chaosmagpy/chaos.py:BaseModel.synth_values"]}
{"id": "C79", "title": "synth_from_pp agrees with the model class", "statement": "synth_from_pp(breaks, order, coeffs, ...) returns the same shape and values (NaN included) as BaseModel(...).synth_values(..., extrapolate='off').", "quantifier": "every piecewise polynomial and evaluation", "why_tests_cant": "all shapes and times", "anchors": ["chaosmagpy/model_utils.py:synth_from_pp", "chaosmagpy/chaos.py:BaseModel.synth_values"]}
{"id": "C80", "title": "Direction of the sun", "statement": "The position returned by sun_position is the direction with the ecliptic longitude of Russell (1971), rotated by the obliquity of the ecliptic about the vernal axis and by the Greenwich sidereal angle about the rotation axis.", "quantifier": "every accepted time with acute obliquity (at least all times within 27000 years before and 270 years after 2000)", "why_tests_cant": "all times; the code uses quotients of tangents and arctan branches instead of a rotation", "anchors": ["chaosmagpy/coordinate_utils.py:sun_position"]}
{"id": "C81", "title": "Rotation spectrum reproduces the matrices it was made from", "statement": "With all Fourier components kept, synth_rotate_gauss applied to the output of rotate_gauss_fft gives back, at every sample time (mjd2000), the matrices rotate_gauss computed there.", "quantifier": "every number of samples, step, start date, scaling flag, matrix series and sample", "why_tests_cant": "all series lengths and signals; parity of N and the start date matter", "anchors": ["chaosmagpy/coordinate_utils.py:rotate_gauss_fft", "chaosmagpy/coordinate_utils.py:synth_rotate_gauss"]}
{"id": "C82", "title": "Spectrum filter keeps the largest components", "statement": "rotate_gauss_fft(filter=f) keeps, for every matrix element, the f components of largest magnitude with their frequencies, so the matrices change by at most twice the sum of the dropped magnitudes; asking for more components than exist raises.", "quantifier": "every filter length, series, response and time", "why_tests_cant": "all signals and orders of magnitude", "anchors": ["chaosmagpy/coordinate_utils.py:rotate_gauss_fft"]}
{"id": "C83", "title": "Induction response is physical", "statement": "q_response gives, for every degree, frequency and layered conductivity file, the ratio of internal to external coefficients of the solution of the induction equation: unique, smaller than n/(n+1), zero for an insulator, unchanged when the file tabulates the same profile more finely; rotate_gauss_fft uses the row of the right degree for every coefficient.", "quantifier": "every conductivity profile, frequency and degree", "why_tests_cant": "real analysis over a continuum of models", "anchors": ["chaosmagpy/coordinate_utils.py:q_response", "chaosmagpy/coordinate_utils.py:q_response_1D", "chaosmagpy/coordinate_utils.py:rotate_gauss_fft"]}
{"id": "C84", "title": "Rotation files of another dipole are rejected", "statement": "When the dipole stored in the GSM or SM rotation file differs from params.dipole in the configuration, every evaluation that uses the file raises instead of rotating about a wrong axis; this includes calling the model with that source.", "quantifier": "every model, file, time and source", "why_tests_cant": "all dipoles and files", "anchors": ["chaosmagpy/chaos.py:CHAOS.synth_coeffs_gsm", "chaosmagpy/chaos.py:CHAOS.synth_coeffs_sm"]}
{"id": "C85", "title": "Default RC-index", "statement": "Without an rc argument the SM coefficients use the linear interpolation at the requested times of the RC_e (external) or RC_i (internal) column of the configured file, whatever the order of the rows; a time outside the file raises.", "quantifier": "every table, time array and source", "why_tests_cant": "all tables and times", "anchors": ["chaosmagpy/chaos.py:CHAOS.synth_coeffs_sm"]}
{"id": "C86", "title": "GSM needs only the GSM part", "statement": "A model with GSM coefficients can be evaluated in GSM whether or not it has a static internal part.", "quantifier": "every model", "why_tests_cant": "all combinations of parts", "anchors": ["chaosmagpy/chaos.py:CHAOS.synth_coeffs_gsm"]}
{"id": "C87", "title": "Euler angles per satellite", "statement": "synth_euler_angles returns, at every time inside the satellite's breaks, the angles of the interval that contains the time, for the named satellite and no other; an unknown satellite is reported; a model with Euler angles can be built without meta data.", "quantifier": "every set of satellites, breaks, coefficients and times", "why_tests_cant": "all satellites and times", "anchors": ["chaosmagpy/chaos.py:CHAOS.__init__", "chaosmagpy/chaos.py:CHAOS.synth_euler_angles"]}
{"id": "C88", "title": "Static part and missing parts", "statement": "synth_values_static is the field of the static coefficients up to the degree asked for, independent of time; the methods of a part the model does not have raise ValueError (or an error) instead of returning zeros.", "quantifier": "every model, position and degree", "why_tests_cant": "all models", "anchors": ["chaosmagpy/chaos.py:CHAOS.synth_values_static", "chaosmagpy/chaos.py:CHAOS.synth_values_tdep"]}
{"id": "C89", "title": "MAT-file export/import keeps the Euler angles", "statement": "After save_matfile and load_CHAOS_matfile with the same satellite names, the Euler angles of every satellite (breaks and values, also when a satellite has a single break) are those of the saved model and evaluate to the same values; a file without pre-rotation parameters can still be loaded (only a warning is announced).", "quantifier": "every set of two or more satellites with different numbers of intervals", "why_tests_cant": "all satellites and interval counts", "anchors": ["chaosmagpy/chaos.py:CHAOS.save_matfile", "chaosmagpy/chaos.py:load_CHAOS_matfile"]}
{"id": "C90", "title": "Satellite names on import", "statement": "The n satellites of a file get the first n names given by the user and, if there are fewer, the generic names satellite_k with their number; the names are distinct; the list passed by the user is not changed.", "quantifier": "every number of satellites and every list of names", "why_tests_cant": "all lengths and names", "anchors": ["chaosmagpy/chaos.py:load_CHAOS_matfile"]}
{"id": "C91", "title": "Export replaces the file, all or nothing", "statement": "After save_matfile the file describes exactly the saved model, whatever it contained before; if save_matfile raises an exception nothing was written.", "quantifier": "every model and previous file content", "why_tests_cant": "all histories of the file", "anchors": ["chaosmagpy/chaos.py:CHAOS.save_matfile"]}
{"id": "C92", "title": "MAT-file export/import keeps the calibration", "statement": "load_CHAOS_matfile(save_matfile(model)) reproduces the calibration parameters of every satellite under its name.", "quantifier": "every set of satellites", "why_tests_cant": "all sets of satellites", "anchors": ["chaosmagpy/chaos.py:CHAOS.save_matfile", "chaosmagpy/chaos.py:load_CHAOS_matfile"]}
{"id": "C93", "title": "Importing SHC files of order two and more", "statement": "BaseModel.from_shc of a file that samples piecewise polynomials of the file's order with continuous derivatives up to order-2, with break points at every step-th time, returns the model that equals these functions over the whole period between the first and last break (not only at the tabulated times); samples beyond the last break are ignored; the degrees below the file's minimum degree are zero. A file of order 2 and step 1 is interpolated linearly between all its times.", "quantifier": "every file, order, step, number of times and degree range", "why_tests_cant": "the claim is about all times in between the samples and about all orders, steps and sampling times", "anchors": ["chaosmagpy/chaos.py:BaseModel.from_shc", "chaosmagpy/chaos.py:BaseModel.from_bspline", "chaosmagpy/data_utils.py:load_shcfile", "chaosmagpy/model_utils.py:augment_breaks"]}
{"id": "C94", "title": "SHC export/import round trip for orders two and more", "statement": "BaseModel.from_shc(BaseModel.to_shc(model)) reproduces a model of order two or more: the same breaks, degrees and values at all times up to the rounding of the file format, and degrees outside the exported range are zero.", "quantifier": "every model of order >= 2, degree range, header and leap-year option", "why_tests_cant": "all models and all times between the written samples; a kink at a break is only visible for suitable models", "anchors": ["chaosmagpy/chaos.py:BaseModel.to_shc", "chaosmagpy/chaos.py:BaseModel.from_shc", "chaosmagpy/data_utils.py:save_shcfile", "chaosmagpy/data_utils.py:load_shcfile"]}
{"id": "C95", "title": "CHAOS.save_shcfile writes what is asked for or reports why not", "statement": "CHAOS.save_shcfile(filepath, model=part) writes the part to the file, or raises an exception and leaves the files as they were if the model lacks this part; it never returns normally without having written the file.", "quantifier": "every model, part name and file system", "why_tests_cant": "all combinations of parts present and names passed", "anchors": ["chaosmagpy/chaos.py:CHAOS.save_shcfile"]}
{"id": "C96", "title": "CHAOS models survive SHC export and import", "statement": "load_CHAOS_shcfile of a file written by CHAOS.save_shcfile returns a model with just the saved part (time-dependent or static) and with the same coefficients at all times up to the rounding of the file format; of the static part only the degrees above those of the time-dependent part are written, the lower ones come back as zero.", "quantifier": "every model, part and leap-year option", "why_tests_cant": "all models, all times, all degree ranges", "anchors": ["chaosmagpy/chaos.py:CHAOS.save_shcfile", "chaosmagpy/chaos.py:load_CHAOS_shcfile", "chaosmagpy/chaos.py:BaseModel.from_shc", "chaosmagpy/chaos.py:BaseModel.to_shc"]}
{"id": "C97", "title": "Plots show every component", "statement": "plot_timeseries and plot_maps draw one panel for each array passed, in the order of the arguments, with its title and with the remaining keywords passed on unchanged; a layout with a different number of panels is rejected with ValueError. No component is dropped silently.", "quantifier": "every number of components, title list, layout and keyword dictionary", "why_tests_cant": "all arrays, keyword combinations and models", "anchors": ["chaosmagpy/plot_utils.py:plot_timeseries", "chaosmagpy/plot_utils.py:plot_maps"]}
{"id": "C98", "title": "Colour limits of maps", "statement": "plot_maps uses the limits vmin, vmax of the caller where given; otherwise limits symmetric about zero given by the limiter (largest absolute value), so that no value of a panel lies beyond its colour scale.", "quantifier": "every set of maps, limiter and keywords", "why_tests_cant": "all arrays, keyword combinations and models", "anchors": ["chaosmagpy/plot_utils.py:plot_maps"]}
{"id": "C99", "title": "Plots of a model show the model", "statement": "BaseModel.plot_timeseries shows the requested derivative and degrees of the field components at equidistant times from the first to the last break; plot_maps shows them on a global grid, plot_power_spectrum the spectrum over the degrees; titles and units name the degree and derivative shown.", "quantifier": "every model, place, time, degree, derivative and keyword dictionary", "why_tests_cant": "all arrays, keyword combinations and models", "anchors": ["chaosmagpy/chaos.py:BaseModel.plot_timeseries", "chaosmagpy/chaos.py:BaseModel.plot_maps", "chaosmagpy/chaos.py:BaseModel.plot_power_spectrum"]}
{"id": "C100", "title": "Plots of a CHAOS model", "statement": "The CHAOS plotting methods show the named part (time-dependent, static, GSM, SM or the sum of both) and raise ValueError if the part is missing or the reference is unknown; the maps of the static part have limits of 200 nT unless others are passed.", "quantifier": "every model, part, time, radius, degree, source and keyword dictionary", "why_tests_cant": "all arrays, keyword combinations and models", "anchors": ["chaosmagpy/chaos.py:CHAOS.plot_timeseries_tdep", "chaosmagpy/chaos.py:CHAOS.plot_maps_tdep", "chaosmagpy/chaos.py:CHAOS.plot_maps_static", "chaosmagpy/chaos.py:CHAOS.plot_maps_external"]}
{"id": "C101", "title": "Spherical harmonic analysis recovers the coefficients", "statement": "sh_analysis(func, nmax, kmax) returns exactly the Schmidt coefficients of degrees 1 to nmax of a function of degree D whenever nmax + D <= 2*max(nmax, kmax) + 1 (coefficients above D are zero); kmax below nmax is ignored; nmax=0 raises IndexError.", "quantifier": "every function that is a finite spherical harmonic sum, every nmax and kmax, every Gauss-Legendre rule", "why_tests_cant": "all functions and degrees", "anchors": ["chaosmagpy/coordinate_utils.py:sh_analysis"]}
{"id": "C102", "title": "Aliasing of spherical harmonic analysis", "statement": "The docstring examples of sh_analysis: the degree-7 zonal function analysed with nmax=1 gives 5/9 for g_1^0, and zero as soon as kmax is 4 or more.", "quantifier": "every Gauss-Legendre rule, every kmax", "why_tests_cant": "exact value for all sampling choices", "anchors": ["chaosmagpy/coordinate_utils.py:sh_analysis"]}
{"id": "C103", "title": "Rotated Gauss coefficients describe the same function", "statement": "rotate_gauss returns, for each time, a matrix with nmax(nmax+2) rows and kmax(kmax+2) columns; the function with the rotated coefficients at a geographic direction equals the function with the original coefficients at the coordinates of the same direction in the rotated system (up to the smaller degree); a degree of zero raises IndexError.", "quantifier": "every nmax, kmax, every list of right-handed orthonormal base vectors, every coefficient vector and direction", "why_tests_cant": "all rotations, degrees and directions", "anchors": ["chaosmagpy/coordinate_utils.py:rotate_gauss"]}
{"id": "C104", "title": "Rotation does not mix degrees", "statement": "The entries of the rotation matrix between different degrees are zero and no entry depends on nmax or kmax: the truncation only cuts the matrix.", "quantifier": "every pair of truncations, every rotation, every entry", "why_tests_cant": "all rotations and degrees", "anchors": ["chaosmagpy/coordinate_utils.py:rotate_gauss"]}
{"id": "C105", "title": "Rotation preserves the power of each degree", "statement": "Rotated coefficients have the same sum of squares in each degree as the original ones and zeros above kmax; square rotation matrices are orthogonal.", "quantifier": "every rotation, truncation and coefficient vector", "why_tests_cant": "all rotations and vectors", "anchors": ["chaosmagpy/coordinate_utils.py:rotate_gauss"]}
{"id": "C106", "title": "Rotation matrices are a representation", "statement": "The matrix of the inverse rotation is the transpose, the matrix of two successive rotations is the product, the matrix of the geographic axes is the identity.", "quantifier": "every rotation, every pair of rotations, every degree", "why_tests_cant": "all rotations", "anchors": ["chaosmagpy/coordinate_utils.py:rotate_gauss"]}
{"id": "C107", "title": "Rotation spectra reproduce the rotation", "statement": "synth_rotate_gauss applied to the output of rotate_gauss_fft gives, at each sample time, the matrix that rotates from GSM (SM) at that time to the geographic system; other references raise ValueError.", "quantifier": "every number of samples, step, start date, degree, dipole, sample time, coefficient vector and direction", "why_tests_cant": "all sample times, degrees and directions", "anchors": ["chaosmagpy/coordinate_utils.py:rotate_gauss_fft", "chaosmagpy/coordinate_utils.py:synth_rotate_gauss"]}
{"id": "C108", "title": "Analysis and rotation agree", "statement": "sh_analysis of the function that a coefficient vector describes in a rotated system returns the rotation matrix times the vector.", "quantifier": "every rotation, degree and coefficient vector", "why_tests_cant": "all rotations and vectors", "anchors": ["chaosmagpy/coordinate_utils.py:sh_analysis", "chaosmagpy/coordinate_utils.py:rotate_gauss"]}
{"id": "C109", "title": "mjd2000 in double precision", "statement": "With the rounding of every operation, mjd2000 of a date and time of day differs from the exact number of days by a relative error of at most 2.3e-16; full days and multiples of 45 minutes are exact; later instants never get smaller values, and larger ones if they are at least 5 microseconds later (one nanosecond may be lost).", "quantifier": "every valid date and time of day within the 64-bit nanosecond clock", "why_tests_cant": "all dates; rounding errors at rare values", "anchors": ["chaosmagpy/data_utils.py:mjd2000"]}
{"id": "C110", "title": "timestamp after mjd2000 in double precision", "statement": "timestamp(mjd2000(...)) differs from the instant by at most 3.2 microseconds, by less than 0.4 microseconds within 36 years of 2000, so that whole microseconds come back when the result is rounded to microseconds; multiples of 45 minutes are exact. It is not exact in general (2003-05-03 13:52:15 comes back 16 ns early).", "quantifier": "every valid date and time of day within the 64-bit nanosecond clock", "why_tests_cant": "all instants; rounding errors at rare values", "anchors": ["chaosmagpy/data_utils.py:timestamp", "chaosmagpy/data_utils.py:mjd2000"]}
{"id": "C111", "title": "Decimal years in double precision", "statement": "With the rounding of every operation, the round trips of dyear_to_mjd and mjd_to_dyear return the argument to within 1e-10 days and 2.6e-13 years (5e-10 days and 1.5e-12 years with leap_year=False); both functions preserve the order; 1 January is exact; the integer part of the decimal year is the calendar year except within 1e-10 days of the next new year.", "quantifier": "every time of the years 1708 to 2291 (leap_year=False: -2000 to 6000)", "why_tests_cant": "all times; rounding errors at rare values", "anchors": ["chaosmagpy/data_utils.py:dyear_to_mjd", "chaosmagpy/data_utils.py:mjd_to_dyear"]}
{"id": "C112", "title": "Degrees inferred in double precision are right", "statement": "int(np.sqrt(x) - 1) and the divisions by which synth_values infers nmax from mmax give the exact integer result although square root, division and sums are rounded: n for n(n+2) coefficients, and the integer square root for every other number.", "quantifier": "every number of coefficients up to 2^30, degrees and orders up to 2^15 (single square roots up to 2^50)", "why_tests_cant": "all numbers of coefficients", "anchors": ["chaosmagpy/model_utils.py:synth_values", "chaosmagpy/model_utils.py:power_spectrum", "chaosmagpy/chaos.py:BaseModel"]}
{"id": "C113", "title": "The power spectrum is the mean square field over the sphere", "statement": "For internal and external coefficients, entry n-1 of power_spectrum(coeffs, radius) is the mean over the sphere of that radius of |B|^2 of the field that synth_values gives for the degree-n coefficients; the mean of |B|^2 of the whole field is the sum of the spectrum.", "quantifier": "every coefficient vector, radius, degree and both sources", "why_tests_cant": "integral over all points of the sphere; all coefficients", "anchors": ["chaosmagpy/model_utils.py:power_spectrum", "chaosmagpy/model_utils.py:synth_values"]}
{"id": "C114", "title": "Internal, external and toroidal spectra add", "statement": "The toroidal spectrum is the mean square of the toroidal field of the coefficients, and the mean square of a field with internal, external and toroidal parts is the sum of the three spectra, as the documentation of power_spectrum states: there are no cross terms.", "quantifier": "all coefficient vectors (of different degrees), all radii", "why_tests_cant": "integral over all points of the sphere; all coefficients", "anchors": ["chaosmagpy/model_utils.py:power_spectrum", "chaosmagpy/model_utils.py:synth_values"]}
{"id": "C115", "title": "Degree correlation is the correlation of the two fields over a sphere", "statement": "Where neither model vanishes at degree n, degree_correlation gives the mean over the sphere of B1.B2 divided by the root mean squares of B1 and B2, where B1, B2 are the degree-n fields that synth_values gives; the value does not depend on the radius nor on whether the coefficients are internal or external.", "quantifier": "every pair of coefficient vectors, every degree, radius and source", "why_tests_cant": "integral over all points; all coefficients", "anchors": ["chaosmagpy/model_utils.py:degree_correlation", "chaosmagpy/model_utils.py:synth_values"]}
{"id": "C116", "title": "RC-index text file: one row per epoch", "statement": "load_RC_datfile returns, in file order, exactly one row (time, RC, RC_e, RC_i, flag) per data line: comment lines, blank lines, trailing comments and the amount of white space do not matter; with parse_dates the time column becomes the index and the other columns are unchanged. A word that is no number in a number column, or a surplus field after the first row, raises.", "quantifier": "every text file of the documented layout, of any length; every position of a faulty line", "why_tests_cant": "any number of lines, any white space and comments; any faulty file", "anchors": ["chaosmagpy/data_utils.py:load_RC_datfile"]}
{"id": "C117", "title": "Text and HDF5 RC-index files are interchangeable", "statement": "The index that synth_coeffs_sm takes from the configured RC file is the linear interpolation of the column RC_e (external) or RC_i (internal) written in the text file, with an error outside the epochs; the HDF5 file produced from the text by save_RC_h5file gives the same values and the same errors.", "quantifier": "every RC text file, source and array of times", "why_tests_cant": "all files and all times", "anchors": ["chaosmagpy/data_utils.py:save_RC_h5file", "chaosmagpy/chaos.py:CHAOS.synth_coeffs_sm"]}
{"id": "C118", "title": "save_RC_h5file never raises and never mixes files", "statement": "On success the HDF5 file has the five columns of the text file (first character of each flag). If the text cannot be read or the output cannot be created, nothing changes and a warning is issued. No other file is ever touched, and at every point of the run the output gives the old index, a KeyError or the new index. When a warning is issued the old file is kept.", "quantifier": "every file system, every text file, every point of the run", "why_tests_cant": "crash points; every content of the files", "anchors": ["chaosmagpy/data_utils.py:save_RC_h5file"]}
{"id": "C119", "title": "Constant-conductivity response of deep shells is the physical one", "statement": "q_response_1D(kind='constant') on shells whose top radius is at least 3/sqrt(w mu0 sigma) returns, for every period, the Q for which an external field of degree n has the internal response Q e in a sphere of conducting shells above a perfectly conducting core; |Q| < n/(n+1); C is the penetration depth a v/(v + a v') of the field inside, with positive real part and modulus at most the radius; rho_a = w mu0 |C|^2.", "quantifier": "every vector of positive periods, every degree, every list of conducting shells deep at each period", "why_tests_cant": "all conductivities, radii, degrees and periods; involves a differential equation", "anchors": ["chaosmagpy/coordinate_utils.py:q_response_1D"]}
{"id": "C120", "title": "q_response_1D(kind='constant') terminates", "statement": "The call terminates for every input: the power-series loop, which runs until two terms are below the tolerance, ends for every argument and every positive tolerance, and the result is the one obtained at that point.", "quantifier": "every periods array, list of shells, degree and tolerance", "why_tests_cant": "a while loop without bound, all complex arguments", "anchors": ["chaosmagpy/coordinate_utils.py:q_response_1D"]}
{"id": "C121", "title": "Power-series response converges to the physical one", "statement": "For shells of any depth the response computed by the power series tends to the physical response of the shells as the tolerance of the series goes to zero.", "quantifier": "every positive period, every degree, every list of conducting shells of any depth", "why_tests_cant": "limit over tolerances, all profiles", "anchors": ["chaosmagpy/coordinate_utils.py:q_response_1D"]}
{"id": "C122", "title": "q_response_1D(kind='constant') accepts a period or a vector of periods", "statement": "A single period (float) or a vector of periods with at least one shell above the core gives one response per period, each from its own period only; matrices of periods raise ValueError and a core without a shell raises an error.", "quantifier": "every periods array, list of shells and degree", "why_tests_cant": "all shapes", "anchors": ["chaosmagpy/coordinate_utils.py:q_response_1D"]}
{"id": "C123", "title": "transform_points broadcasts its arguments element by element", "statement": "For arrays theta, phi, time and dipole that broadcast together, transform_points returns two arrays of the broadcast shape, and every element is the result for the corresponding single location, time and dipole; arguments that do not broadcast raise ValueError; for 'mag' the time plays no role.", "quantifier": "all shapes and values of theta, phi, time and dipole (missing, one array, pole tuple or coefficient tuple), all reference systems, both directions", "why_tests_cant": "every combination of shapes of four arguments", "anchors": ["chaosmagpy/coordinate_utils.py:transform_points", "chaosmagpy/coordinate_utils.py:geo_to_base", "chaosmagpy/coordinate_utils.py:basevectors_gsm", "chaosmagpy/coordinate_utils.py:basevectors_sm", "chaosmagpy/coordinate_utils.py:basevectors_mag", "chaosmagpy/coordinate_utils.py:dipole_to_vec"]}
{"id": "C124", "title": "transform_vectors broadcasts its arguments element by element", "statement": "For arrays theta, phi, B_theta, B_phi, time and dipole that broadcast together and contain no pole of either system, transform_vectors returns the locations of transform_points and two arrays of components of the broadcast shape, each element the result for that location, vector, time and dipole alone; one pole in the array makes the whole call raise ValueError.", "quantifier": "all shapes and values of the six arguments, all reference systems, both directions", "why_tests_cant": "every combination of shapes of six arguments", "anchors": ["chaosmagpy/coordinate_utils.py:transform_vectors", "chaosmagpy/coordinate_utils.py:matrix_geo_to_base", "chaosmagpy/coordinate_utils.py:basevectors_use"]}
{"id": "C125", "title": "zenith_angle broadcasts its arguments element by element", "statement": "zenith_angle returns an array of the broadcast shape of time, theta and phi, each element the zenith angle for that time and place alone; one time from 2099 on makes the whole call raise AssertionError.", "quantifier": "all shapes and values of the three arguments", "why_tests_cant": "every combination of shapes", "anchors": ["chaosmagpy/coordinate_utils.py:zenith_angle", "chaosmagpy/coordinate_utils.py:sun_position"]}
{"id": "C126", "title": "center_azimuth in double precision", "statement": "For every finite double, center_azimuth returns a double in (-180, 180] that differs from the angle by a multiple of 360 degrees up to 3e-14 degrees; nonnegative angles are reduced exactly, angles in [0, 180] are returned unchanged, and applying the function twice gives the same as applying it once.", "quantifier": "all finite double-precision angles", "why_tests_cant": "2^64 doubles, with rounding special cases near 0 and 360", "anchors": ["chaosmagpy/coordinate_utils.py:center_azimuth"]}
{"id": "C127", "title": "local_time in double precision", "statement": "For finite doubles, local_time returns a value in [0, 24); it agrees with the exact local time up to 1.8e-10 hours (modulo 24) for times within 358 years of 2000.", "quantifier": "all double-precision times and longitudes", "why_tests_cant": "rounding special cases occur only for few of the 2^128 pairs", "anchors": ["chaosmagpy/coordinate_utils.py:local_time"]}
{"id": "C128", "title": "gg_to_geo and geo_to_gg broadcast element by element", "statement": "For arrays of heights and colatitudes (radii and colatitudes) of any shapes, the locations returned have the broadcast shape and each element is the result for that location alone; with both vector components given, the two returned components have the broadcast shape of all four arguments, element by element; with none or one of them only the locations are returned; ValueError is raised exactly if the shapes do not broadcast.", "quantifier": "all shapes and values of the four arguments", "why_tests_cant": "every combination of shapes", "anchors": ["chaosmagpy/coordinate_utils.py:gg_to_geo", "chaosmagpy/coordinate_utils.py:geo_to_gg", "chaosmagpy/coordinate_utils.py:basevectors_gg"]}
{"id": "C129", "title": "power_spectrum in double precision", "statement": "Each entry of the power spectrum computed in double precision has a relative error of at most 1.2e-16 (4n+7+p) (n the degree, p the number of roundings of the power function), whatever the order in which NumPy adds the squares, for coefficients and factors that do not underflow.", "quantifier": "all coefficient vectors of doubles without underflow, all degrees and radii, all summation orders", "why_tests_cant": "every vector of doubles and every summation order", "anchors": ["chaosmagpy/model_utils.py:power_spectrum"]}
{"id": "C130", "title": "Model coefficients inside the period in double precision", "statement": "Inside the model period, the coefficients (or their time derivatives per year) computed in double precision are the exact ones of a model whose polynomial coefficients were changed by at most 3K+2+p relative roundings (K the order, p the error of 365.25**deriv); so the error of a value is at most 1.2e-16 (3K+2) times the sum of the absolute polynomial terms.", "quantifier": "all models, times in the period given as doubles, and derivative orders, without underflow", "why_tests_cant": "every time and every coefficient in double precision", "anchors": ["chaosmagpy/chaos.py:Base.synth_coeffs"]}
{"id": "C131", "title": "Synthesised field in double precision", "statement": "For one point, every floating-point operation of synth_values taken with its rounding: each of the three components is the sum of the contributions of the single Gauss coefficients (formed with the table of Legendre functions and the cosines and sines the code uses), each changed by at most 2 nmax + 8 + p + (nmax+1)(mmax+1) roundings of relative size 1.2e-16, where p is the error of the power function. With the errors of table, cosine and sine, this bounds the distance from the exact gradient of the potential. Coefficients of absolute value between 0 and 6e-61 and similarly small intermediate numbers are excluded.", "quantifier": "all degrees nmin, nmax, mmax (up to a million roundings), coefficients, radii, longitudes, internal and external sources, at and off the poles, all tables and library functions with the stated accuracy", "why_tests_cant": "Tests compare a few points with references of the same precision; the bound must hold for every vector and every point.", "anchors": ["chaosmagpy/model_utils.py:synth_values"]}
{"id": "C132", "title": "Apparent resistivity of q_response_1D", "statement": "The second output of q_response_1D is the apparent resistivity w mu0 |C|^2 (C in metres), a real number in Ohm m.", "quantifier": "all vectors of periods, layer models, degrees and both kinds", "why_tests_cant": "The tests check single values of Q; the relation between C and rho_a must hold for every period and model.", "anchors": ["chaosmagpy/coordinate_utils.py:q_response_1D"]}
{"id": "C133", "title": "Phase of q_response_1D", "statement": "The third output is 90 degrees plus the phase angle of C in degrees, within 0.015 degrees; for quadratic layers and positive periods C lies in the fourth quadrant, so that the phase is between 0 (less 0.01) and 90 degrees.", "quantifier": "all calls that return, all entries; the range: all positive periods, radii decreasing and positive, conductivities positive", "why_tests_cant": "The phase depends on the complex response of every model; no finite sample shows the range.", "anchors": ["chaosmagpy/coordinate_utils.py:q_response_1D"]}
{"id": "C134", "title": "Arguments of q_response_1D", "statement": "A vector of positive periods and a layer model give one answer per period, the physical response of the quadratic profile; the default kind is 'quadratic'; a matrix of periods and an unknown kind raise ValueError, a model without layers IndexError; a single number as period works.", "quantifier": "all period arrays, layer lists, degrees, kinds", "why_tests_cant": "Shape and option handling for all inputs.", "anchors": ["chaosmagpy/coordinate_utils.py:q_response_1D"]}
{"id": "C135", "title": "Numbers, words and lines of text files", "statement": "When a text file is read, a word is taken as a number exactly if it is a decimal number ([+|-] digits [. digits] [e|E [+|-] digits], at least one digit), and with that value; words are the maximal runs of non-blank characters and lines the runs ended by line feeds; np.fromstring returns the numbers of the leading words that are numbers.", "quantifier": "all character sequences", "why_tests_cant": "The set of texts is infinite; any notation, sign or blank may occur in a file.", "anchors": ["chaosmagpy/data_utils.py:load_shcfile", "chaosmagpy/data_utils.py:load_RC_datfile"]}
{"id": "C136", "title": "Power spectrum of a model", "statement": "model.power_spectrum(time, radius, nmax, deriv, extrapolate) has the shape of the times followed by the number of degrees; inside the model period the entry of degree n is the documented factor of the model's source times the sum of the squared time derivatives (per year) of the coefficients of degree n, i.e. the mean square over the sphere of the field of that degree; without extrapolation it is NaN exactly outside the period; a NaN coefficient makes its own degree NaN; errors of synth_coeffs are passed on and an unknown source raises ValueError.", "quantifier": "all models with strictly increasing breaks, orders, degrees, sources, times of any shape, radii, nmax, derivatives and extrapolation arguments", "why_tests_cant": "The tests compare single numbers for one model; the relation to the coefficients and to the field must hold for every model and time.", "anchors": ["chaosmagpy/chaos.py:BaseModel.power_spectrum", "chaosmagpy/model_utils.py:power_spectrum"]}
{"id": "C137", "title": "Contents of an SHC file as read", "statement": "load_shcfile takes the integers of the first line that is no comment as the parameters and all further numbers as the table; with N times (third parameter) it returns the first N numbers converted to dates, and the rest as rows of N+2 numbers without their two labels; a file of comments only, fewer than three parameters, N <= -2 or a table that is no multiple of N+2 raises an error. Files with too few times (or N = -1) are loaded without an error.", "quantifier": "all file contents, comment marks and leap-year flags", "why_tests_cant": "The set of files is infinite; tests read a few well-formed ones.", "anchors": ["chaosmagpy/data_utils.py:load_shcfile"]}
{"id": "C138", "title": "Cut-off SHC files", "statement": "If a file written by an interrupted program (cut after any number of characters) still loads, then its parameters, times and all values but the last one are those of the complete file; cut after a line, all values are. Building a model from it raises ValueError if rows are missing and the minimum degree is above one, unless a single row is left (it is then used for every coefficient); from degree one on a short file gives a model with fewer coefficients.", "quantifier": "all files, all cut positions, all leap-year flags and parameters", "why_tests_cant": "Every crash point of every file; tests have complete files only.", "anchors": ["chaosmagpy/data_utils.py:load_shcfile", "chaosmagpy/chaos.py:BaseModel.from_shc"]}
{"id": "C139", "title": "Damaged model files are reported", "statement": "CovObs, gufm1 and CALS7K files whose number of coefficients does not fit the header, or whose spline knots are not in increasing order, and IGRF files without header, with a word that is no number or with a number of values that is no multiple of the number of columns raise an error. With fewer knots than the spline order they raise an error too, save that one knot too few, with a table of no row or one, is loaded as a model without field. IGRF rows of different lengths with the right total are not noticed.", "quantifier": "all file contents of the given layouts", "why_tests_cant": "The set of damaged files is infinite; tests read the distributed files.", "anchors": ["chaosmagpy/data_utils.py:load_CovObs_txtfile", "chaosmagpy/data_utils.py:load_gufm1_txtfile", "chaosmagpy/data_utils.py:load_CALS7K_txtfile", "chaosmagpy/data_utils.py:load_IGRF_txtfile"]}
{"id": "C140", "title": "Contents of a saved MAT-file", "statement": "After save_matfile the file has pp in MATLAB's pp-form (order, pieces, dim, breaks as a row, one row of coefs per piece and component with descending powers), so that MATLAB's ppval gives the values of the model; g as a column of the static coefficients; in model_ext the breaks and baseline corrections as columns, q11 and s11 side by side, m_sm with the means of the corrections in place of the first three SM coefficients, m_Dst with those three and m_gsm with GSM coefficients 0 and 3; in model_Euler one cell per satellite of the meta data in their order with breaks and the three angles as columns; pp_CAL with one pp-form per satellite; params with the prerotation angles. Saving fails exactly if SM or GSM coefficients are missing or too few, q11 and s11 differ in length, or a satellite of the meta data (or the meta data) is missing or has fewer than three angles; the exception is that of the first problem and the parts before it are already in the file.", "quantifier": "all models, all meta data, all previous file contents", "why_tests_cant": "All sizes, coefficients and combinations of parts; tests compare one saved model after loading it again.", "anchors": ["chaosmagpy/chaos.py:CHAOS.save_matfile", "chaosmagpy/chaos.py:Base.to_ppdict", "chaosmagpy/chaos.py:Base.save_matfile"]}
{"id": "C141", "title": "Exceptions of invalid calls", "statement": "An empty array of times raises ValueError in the evaluation of a piecewise polynomial, of the time-dependent model and of the GSM and SM coefficients. transform_points and transform_vectors raise ValueError for a reference frame other than GSM, SM and MAG (in any spelling) or none, and TypeError for GSM and SM without a time. A call of the CHAOS model evaluates the listed sources in the order tdep, static, gsm, sm, whatever their order in the list, and raises the exception of the first one that fails; ValueError if the arguments do not broadcast. CovObs, gufm1 and CALS7K files that end before the sizes are known raise IndexError.", "quantifier": "all models, arrays, dipoles, lists of sources and file contents", "why_tests_cant": "All invalid arguments and combinations of failing parts; tests try a few.", "anchors": ["chaosmagpy/chaos.py:Base.synth_coeffs", "chaosmagpy/chaos.py:CHAOS.__call__", "chaosmagpy/chaos.py:CHAOS.synth_coeffs_gsm", "chaosmagpy/chaos.py:CHAOS.synth_coeffs_sm", "chaosmagpy/coordinate_utils.py:transform_points", "chaosmagpy/coordinate_utils.py:transform_vectors", "chaosmagpy/chaos.py:load_CovObs_txtfile", "chaosmagpy/chaos.py:load_gufm1_txtfile", "chaosmagpy/chaos.py:load_CALS7K_txtfile"]}
{"id": "C142", "title": "A call on arrays is the calls on its elements", "statement": "Evaluating a complete CHAOS model on arrays of times and places gives, at every element of the broadcast shape, the three components that a call with the numbers at that element gives, for every choice of sources and whether the RC-index is given (as arrays that broadcast to the times) or taken from its file. The same holds for the values of a single model with any extrapolation.", "quantifier": "all models with strictly increasing breaks, rotation files, arrays of any shapes that broadcast, RC-index arguments, lists of sources, elements", "why_tests_cant": "All shapes and mixtures of times inside and outside the model period; tests compare a few arrays.", "anchors": ["chaosmagpy/chaos.py:CHAOS.__call__", "chaosmagpy/chaos.py:CHAOS.synth_values_tdep", "chaosmagpy/chaos.py:CHAOS.synth_values_static", "chaosmagpy/chaos.py:CHAOS.synth_values_gsm", "chaosmagpy/chaos.py:CHAOS.synth_values_sm", "chaosmagpy/chaos.py:BaseModel.synth_values"]}
{"id": "C143", "title": "Reading the variables of a MAT-file", "statement": "load_matfile returns every variable under its name and in its place. Structures nested to any depth come back as dictionaries nested in the same way, whether the file format delivers them as 1-by-1 arrays with fields or as dictionaries and whether or not they are wrapped in 1-by-1 cells; arrays keep all their values and lose only their axes of length one. Variables whose names begin and end with two underscores are returned as they are, as are the elements of cell arrays that are not 1-by-1. Nothing reached through dictionaries has fields or an axis of length one, and converting a result again changes nothing.", "quantifier": "all contents of MAT-files: names, nesting depth, shapes, values, formats", "why_tests_cant": "Nesting of any depth and every mixture of the two formats; tests read the few files at hand.", "anchors": ["chaosmagpy/data_utils.py:load_matfile", "chaosmagpy/data_utils.py:traverse_struct"]}
{"id": "C144", "title": "Texts for numbers", "statement": "The tick-label formatter fmt writes every non-zero finite number as '$d.d$e$b$' (with a minus sign for negative numbers) where d.d times ten to the power b is the nearest number with two significant digits, ties going to the even digit, hence at most 5 per cent off; zero is '$0.0$', negative zero '$-0.0$e$0$'. memory_usage writes the number of bytes of a pandas object as megabytes with two decimals, at most 0.005 MB off, a frame as the sum of its columns.", "quantifier": "all finite numbers of either sign and any size; all byte counts", "why_tests_cant": "Rounding up to the next power of ten, ties and the padding of the exponent happen at isolated numbers among infinitely many; tests print a few.", "anchors": ["chaosmagpy/plot_utils.py:fmt", "chaosmagpy/data_utils.py:memory_usage"]}
{"id": "C145", "title": "The colour map nio shows value and sign", "statement": "In a map drawn with the colour map nio and the default symmetric limits -L and L every value gets a proper colour; two values within the limits have the same colour exactly if they are in the same of 256 equal parts of the range; the red channel is below 0.98 for negative values and above 0.999 for the others, so the sign can be read off; from -L to 0 no channel decreases, from 0 to L green never increases; values beyond the limits have the colour of the nearest limit. The colours at -L, -2/3 L, -1/3 L, 0, 1/3 L, 2/3 L, L are black, blue, cyan, white, yellow, red, magenta within 3 per cent (white: 0.1 per cent).", "quantifier": "all values and all positive limits", "why_tests_cant": "All pairs of values and all limits; a picture in a test shows one case.", "anchors": ["chaosmagpy/plot_utils.py:nio_colormap", "chaosmagpy/plot_utils.py:plot_maps"]}
{"id": "C146", "title": "Cut-off model text files", "statement": "Loading a gufm1, CALS7K, COV-OBS or IGRF text file of which only a beginning was written should raise an error unless at most the last number is affected. What holds: for gufm1, CALS7K and COV-OBS files (degree at least 1, more knots than the order) every cut raises an error or gives the model of the whole file in which only the last coefficient may differ, or, if the cut is in the list of knots, a model with all coefficients zero; every such file has a cut of the last kind. A cut IGRF table gives an error, no coefficients, or the model of its first rows, the last number perhaps cut; every cut after a full row is accepted, as a model of a lower degree.", "quantifier": "all file contents of the formats, all positions of the cut", "why_tests_cant": "A write can stop after any character of any file; tests load complete files.", "anchors": ["chaosmagpy/chaos.py:load_gufm1_txtfile", "chaosmagpy/chaos.py:load_CALS7K_txtfile", "chaosmagpy/chaos.py:load_CovObs_txtfile", "chaosmagpy/chaos.py:load_IGRF_txtfile"]}
{"id": "C147", "title": "Rotated coefficients give the rotated field", "statement": "Take Gauss coefficients with respect to any right-handed orthonormal axes and multiply them with the matrix that coordinate_utils.rotate_gauss returns for these axes. The magnetic field of the result from synth_values, at any radius, geographic colatitude and longitude (poles included), is the same vector of space as the field of the original coefficients at the same place given in coordinates with respect to the axes: the radial components agree and the southward and eastward components of one system are those of the other turned into its directions.", "quantifier": "all axes, degrees, coefficients, sources, radii and positions, arrays of positions of any shape", "why_tests_cant": "The tests compare a few coefficients for a few axes; equality of the field holds at every place for every system.", "anchors": ["chaosmagpy/coordinate_utils.py:rotate_gauss", "chaosmagpy/model_utils.py:synth_values"]}
{"id": "C148", "title": "Rotation files of one's own", "statement": "rotate_gauss_fft(save_to=name) writes exactly one file, name with the ending .npz added unless it is there, with the arrays it returns, its arguments and the dipole configured at that moment; other files stay, nothing is written for None or an empty name, and the result is the same as without a file. When the file (scaled=True, all Fourier components, start date 2000-01-01) is configured as file.GSM_spectrum or file.SM_spectrum, then at the sample times the vector of CHAOS.synth_values_gsm / synth_values_sm for source 'external' is the field of the model's GSM / SM coefficients at the coordinates of the point in the axes of that date and dipole. With another dipole configured the file is refused; the name without the ending is not found. A file written with the default scaled=False would have to give the same (it does not: the field varies only half as much about its mean).", "quantifier": "all names and existing files, degrees, sample spacings and odd numbers of samples, dipoles, coefficients, baseline corrections, RC values, positions and arrays of them", "why_tests_cant": "The tests read the built-in files, written by the authors; that any file written is read back to the right rotation at every sample time is a statement about all of them.", "anchors": ["chaosmagpy/coordinate_utils.py:rotate_gauss_fft", "chaosmagpy/coordinate_utils.py:synth_rotate_gauss", "chaosmagpy/chaos.py:CHAOS.synth_coeffs_gsm", "chaosmagpy/chaos.py:CHAOS.synth_values_gsm", "chaosmagpy/chaos.py:CHAOS.synth_coeffs_sm", "chaosmagpy/chaos.py:CHAOS.synth_values_sm"]}
{"id": "C149", "title": "Another reference radius", "statement": "Referring Gauss coefficients to another reference radius, g' = g (a/a')^(n+2) for internal and g' = g (a'/a)^(n-1) for external sources, and configuring params.r_surf = a' instead of a, gives the same field from synth_values at every position and the same values of power_spectrum at every radius. Only the ratio of radius and reference radius counts: multiplying both by the same number (another unit of length) changes nothing.", "quantifier": "all reference radii, coefficients, degrees, sources, radii and positions, arrays of positions of any shape", "why_tests_cant": "Tests use one reference radius; the law concerns every pair of radii, every degree and every place.", "anchors": ["chaosmagpy/model_utils.py:synth_values", "chaosmagpy/model_utils.py:power_spectrum"]}
{"id": "C150", "title": "The field on one sphere determines the coefficients", "statement": "If two pairs of internal and external Gauss coefficients give, with synth_values, the same radial and southward components of the summed field everywhere on one sphere, the coefficients are the same: different coefficients never describe the same field, and internal and external sources can be told apart. For one source the radial or the southward component alone is enough; for both sources the radial component alone is not.", "quantifier": "all coefficients, degrees of the two sources, radii and reference radii; the hypothesis ranges over all colatitudes and longitudes", "why_tests_cant": "The statement compares all pairs of models with each other over the whole sphere.", "anchors": ["chaosmagpy/model_utils.py:synth_values"]}
{"id": "C151", "title": "Names of models, missing files and line ends", "statement": "Without a name argument BaseModel.from_shc, load_CovObs_txtfile, load_gufm1_txtfile, load_IGRF_txtfile and load_CHAOS_shcfile name the model after the file, without directory and last extension; load_CALS7K_txtfile keeps the extension; parameters['SHC'] of load_shcfile is the file name. A given name is used as it is (str() of other objects), and never changes anything else. CHAOS objects are called 'CHAOS' by default and their parts name_tdep and name_static; every text is accepted as name (an object that is no text is a TypeError as soon as there is a part). A missing file is a FileNotFoundError whatever the other arguments. Files that differ only in the line ends (\\n, \\r\\n, \\r) load alike.", "quantifier": "all paths, names, file contents and file systems", "why_tests_cant": "The statement ranges over all paths (several dots, leading dots, no directory) and all contents of files.", "anchors": ["chaosmagpy/chaos.py:BaseModel.from_shc", "chaosmagpy/chaos.py:load_CHAOS_shcfile", "chaosmagpy/chaos.py:load_CovObs_txtfile", "chaosmagpy/chaos.py:load_gufm1_txtfile", "chaosmagpy/chaos.py:load_CALS7K_txtfile", "chaosmagpy/chaos.py:load_IGRF_txtfile", "chaosmagpy/chaos.py:CHAOS.__init__", "chaosmagpy/data_utils.py:load_shcfile"]}
{"id": "C152", "title": "The name of a model does not affect what its SHC file says", "statement": "BaseModel.to_shc and CHAOS.save_shcfile write the name of the model into the header of the file only: models that differ in the name only give files that load_shcfile, BaseModel.from_shc and load_CHAOS_shcfile read alike, with the same outcome of the writing.", "quantifier": "all models, names, dates, degrees and file systems", "why_tests_cant": "The statement compares all pairs of names; tests use one name.", "anchors": ["chaosmagpy/chaos.py:BaseModel.to_shc", "chaosmagpy/chaos.py:CHAOS.save_shcfile", "chaosmagpy/data_utils.py:save_shcfile", "chaosmagpy/data_utils.py:load_shcfile"]}
{"id": "C153", "title": "Models made from splines are smooth in time", "statement": "A model made by BaseModel.from_bspline of order K >= 2 with knots from augment_breaks has pieces that join with K-2 continuous derivatives. At every time between the first and last break point, break points included, synth_coeffs with deriv=m (m <= K-2) gives 365.25**m times the m-th derivative of the spline, which exists there and is continuous; and synth_values gives 365.25**m times the m-th derivative of the field that the spline coefficients have at that place. K-2 cannot be raised.", "quantifier": "all break points, orders, coefficients, sources, degrees, places, times inside the period and derivatives up to K-2", "why_tests_cant": "Continuity of derivatives at all break points of all splines is a statement about limits; tests compare finitely many values.", "anchors": ["chaosmagpy/chaos.py:BaseModel.from_bspline", "chaosmagpy/chaos.py:Base.synth_coeffs", "chaosmagpy/chaos.py:BaseModel.synth_values", "chaosmagpy/model_utils.py:pp_from_bspline", "chaosmagpy/model_utils.py:augment_breaks"]}
{"id": "C154", "title": "Spherical harmonic analysis is the best fit on its grid", "statement": "For every function sh_analysis succeeds (nmax >= 1) and returns, of all coefficients of degrees 1 to nmax, those with the smallest weighted mean square difference to the function on the Gauss-Legendre grid; for other coefficients the mean square error is larger by the sum over n of the squared differences of degree n over 2n+1, so the result is the only minimiser. The result is linear in the function, depends only on the values at the grid points and does not change when a constant is added.", "quantifier": "all functions on the sphere, degrees nmax and kmax, and competing coefficients", "why_tests_cant": "A statement about all functions and all competing coefficient vectors; tests analyse a few expansions.", "anchors": ["chaosmagpy/coordinate_utils.py:sh_analysis"]}
{"id": "C155", "title": "Spherical and Cartesian coordinates in double precision", "statement": "With every operation rounded to double precision, cartesian_to_spherical returns radius, colatitude and longitude with relative errors of a few units in the last place (4e-16, 9e-16 and 5e-16 with a library accurate to one rounding) at every point, also near the poles, the equator and the date line; spherical_to_cartesian returns each component within (2.1 e + 8e-15) radii, e being the absolute error of the library's cos and sin; going there and back gives the coordinates of a point within about 1.5e-14 radii of the first.", "quantifier": "all points whose components are 0 or between 2^-300 and 2^300 in size; all angles up to 360 degrees; all C libraries of the assumed accuracy", "why_tests_cant": "A worst-case bound over all floating-point inputs; cancellation and loss of accuracy occur at special points that tests miss.", "anchors": ["chaosmagpy/coordinate_utils.py:spherical_to_cartesian", "chaosmagpy/coordinate_utils.py:cartesian_to_spherical"]}
{"id": "C156", "title": "The solar zenith angle in double precision", "statement": "For a given position of the sun and with every operation rounded to double precision, the argument of arccos in zenith_angle is within 5.1 e + 5e-14 of the cosine of the true zenith angle (e: absolute error of the library's cos, sin and arccos). With the sun between 1 and 179 degrees from the zenith a number is returned, right to about 5e-10 degrees; wherever a number is returned it is right to about 4e-5 degrees. Exactly below the sun the result may be NaN, since the argument of arccos is not clipped to [-1, 1].", "quantifier": "all positions of sun and point with angles up to 360 degrees, all C libraries of the assumed accuracy", "why_tests_cant": "A worst-case bound over all floating-point inputs; the NaN occurs only at isolated points and depends on the C library.", "anchors": ["chaosmagpy/coordinate_utils.py:zenith_angle"]}
{"id": "C157", "title": "The geomagnetic axis in double precision", "statement": "With every operation rounded to double precision, the unit vector that dipole_to_vec makes from the coefficients g10, g11, h11 has every component right to a relative error of 5e-16 and length 1 up to 5e-16, in whatever order the three squares are added; the vector made from a pole position has every component within 2.1 e + 8e-15 of the exact one (e: absolute error of the library's cos and sin).", "quantifier": "all coefficients that are 0 or between 2^-300 and 2^300 in size, not all zero; all pole positions with angles up to 360 degrees", "why_tests_cant": "A worst-case bound over all floating-point inputs and all summation orders.", "anchors": ["chaosmagpy/coordinate_utils.py:_dipole_to_unit", "chaosmagpy/coordinate_utils.py:dipole_to_vec"]}

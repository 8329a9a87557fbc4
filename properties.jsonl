{"id": "C01", "title": "Grid coordinates are a uniform pole-to-pole, periodic lon-lat grid", "statement": "For every accepted resolution, Grid.lat has nlat entries, starts at exactly +90, ends at exactly -90 and is strictly decreasing with one uniform spacing; Grid.lon has nlon entries, starts at 0, is strictly increasing with one uniform spacing, stays below 360 and one more step lands exactly on 360.", "quantifier": "every real resolution accepted by Grid(...)", "why_tests_cant": "infinitely many resolutions; tests sample five", "anchors": ["src/barotropic/grid.py:Grid.__init__"]}
{"id": "C02", "title": "Nominal spacing dlon/dlat agrees with the coordinate spacing", "statement": "Grid.dlon and Grid.dlat (and dlam, dphi) equal the actual spacing of Grid.lon and Grid.lat (lam, phi).", "quantifier": "every accepted resolution", "why_tests_cant": "only resolutions dividing 180 are ever tested; the claim is false for others", "anchors": ["src/barotropic/grid.py:Grid.__init__"]}
{"id": "C03", "title": "Grid(resolution=180/n) has n+1 latitudes and 2n longitudes", "statement": "Asking for n latitude intervals through resolution=180/n gives nlat == n+1 and nlon == 2n, in exact arithmetic and in the IEEE double arithmetic Python uses.", "quantifier": "every n >= 2", "why_tests_cant": "an off-by-one from float truncation shows up only for isolated n", "anchors": ["src/barotropic/grid.py:Grid.__init__"]}
{"id": "C04", "title": "Grid equality and hashing are consistent", "statement": "Grid.__eq__ is an equivalence relation and grids that compare equal have equal hashes (they are used as cache keys and to guard StateList).", "quantifier": "all pairs and triples of grids", "why_tests_cant": "a universally quantified relation over real parameters", "anchors": ["src/barotropic/grid.py:Grid.__eq__", "src/barotropic/grid.py:Grid.__hash__"]}
{"id": "C05", "title": "Planetary geometry helpers are consistent", "statement": "coriolis is odd about the equator, strictly increasing with latitude for omega > 0 and equals fcor on the grid; circumference is positive between the poles, zero at the poles, and the area of the polar cap north of a latitude is the integral of circumference along the meridian.", "quantifier": "all latitudes in [-90, 90], all planets", "why_tests_cant": "continuum of latitudes", "anchors": ["src/barotropic/grid.py:Grid.coriolis", "src/barotropic/grid.py:Grid.circumference", "src/barotropic/grid.py:Grid.equivalent_latitude"]}
{"id": "C06", "title": "Gridpoint areas are positive, symmetric and tile the sphere", "statement": "Every entry of Grid.gridpoint_area is positive, the profile is symmetric about the equator, and the areas of all gridpoints sum to 4*pi*r^2 for every resolution.", "quantifier": "every accepted resolution and radius", "why_tests_cant": "telescoping identity over arbitrary nlat; false for non-dividing resolutions", "anchors": ["src/barotropic/grid.py:Grid.gridpoint_area"]}
{"id": "C07", "title": "Grid.mean is a genuine area-weighted average", "statement": "Grid.mean (no axis, meridional, zonal; global or in a non-empty region) of a constant is that constant, is linear, lies between the minimum and the maximum of the averaged values, and the global mean equals the area-weighted mean of the zonal means.", "quantifier": "all fields, all grids, all non-empty regions, all axes", "why_tests_cant": "quantifies over all fields", "anchors": ["src/barotropic/grid.py:Grid.mean", "src/barotropic/grid.py:GridRegion.mean"]}
{"id": "C08", "title": "Axis argument of Grid.mean", "statement": "0, -2 and 'meridional' give the same result, 1, -1 and 'zonal' give the same result, None the full mean and anything else raises ValueError; a field whose shape is neither the grid's nor the region's is rejected.", "quantifier": "all axis values, all fields", "why_tests_cant": "unbounded set of axis values and shapes", "anchors": ["src/barotropic/grid.py:Grid.mean"]}
{"id": "C09", "title": "sptrapz quadrature is the exact integral of the interpolated data", "statement": "quad_meridional(y, z, 'sptrapz') returns for every longitude exactly the integral over latitude of r*Y(phi)*cos(phi) restricted to Z(phi) >= 0 where Y and Z are the piecewise-linear interpolants of y and z along the meridian.", "quantifier": "all fields y and z, all grids", "why_tests_cant": "equality of a finite formula with an integral for all real data", "anchors": ["src/barotropic/grid.py:Grid.quad_meridional"]}
{"id": "C10", "title": "Quadrature of 1 is the surface of the sphere", "statement": "quad(ones) == 4*pi*r^2 for both quadrature schemes, and quad(c*ones) == c*4*pi*r^2.", "quantifier": "every accepted resolution, radius, both methods", "why_tests_cant": "test uses five resolutions with tolerance", "anchors": ["src/barotropic/grid.py:Grid.quad", "src/barotropic/grid.py:Grid.quad_meridional"]}
{"id": "C11", "title": "Quadrature is linear, monotone and additive over complementary domains", "statement": "quad_meridional is linear in y; y1 <= y2 implies quad_meridional(y1, z) <= quad_meridional(y2, z); a smaller domain gives a smaller integral of a non-negative field; splitting the sphere by the sign of a field without zeros at gridpoints splits the integral.", "quantifier": "all fields and domains", "why_tests_cant": "all fields", "anchors": ["src/barotropic/grid.py:Grid.quad_meridional"]}
{"id": "C12", "title": "equivalent_latitude inverts the polar-cap area", "statement": "For area in [0, 4*pi*r^2], the polar cap north of equivalent_latitude(area) has exactly that area; outside that range the result is clamped to +-90; the result always lies in [-90, 90] and is non-increasing in area. A number or an array is accepted.", "quantifier": "all real areas (number or array)", "why_tests_cant": "continuum; the documented scalar input is never tested", "anchors": ["src/barotropic/grid.py:Grid.equivalent_latitude"]}
{"id": "C13", "title": "zonalize preserves the area enclosed by every contour", "statement": "zonalize(field, interpolate=False) returns pairs (q, y) such that the polar cap north of y has the same area as {field >= q} measured with the chosen quadrature (scaled to the globe for sectors), and larger q never gets a smaller y.", "quantifier": "all fields, all contour level lists, sectors of any width", "why_tests_cant": "all fields and levels", "anchors": ["src/barotropic/grid.py:Grid.zonalize"]}
{"id": "C14", "title": "zonalize leaves a zonally symmetric monotone field in place", "statement": "If field depends on latitude only and strictly decreases from north to south, the equivalent latitude of every contour between its extremes is exactly the latitude at which the linearly interpolated field takes the contour value.", "quantifier": "all strictly monotone zonally symmetric fields", "why_tests_cant": "all profiles", "anchors": ["src/barotropic/grid.py:Grid.zonalize"]}
{"id": "C15", "title": "Automatic contour levels are strictly inside the data range and increasing", "statement": "With levels an integer n (or None), zonalize uses n contour values that are strictly increasing and strictly between min and max of a non-constant field, symmetric about the mid-range.", "quantifier": "all n, all non-constant fields", "why_tests_cant": "all n", "anchors": ["src/barotropic/grid.py:Grid.zonalize"]}
{"id": "C16", "title": "Meridional interpolation reproduces nodes and never overshoots", "statement": "interpolate_meridional passes through the given data at the given latitudes, returns the pole values at the poles when no data is given there, and every result lies between the minimum and maximum of data and pole values; no output is undefined.", "quantifier": "all lists of latitudes (any order) within [-90, 90] and all values", "why_tests_cant": "all node sets; degenerate nodes are never tested", "anchors": ["src/barotropic/grid.py:Grid.interp1d_meridional", "src/barotropic/grid.py:Grid.interpolate_meridional"]}
{"id": "C17", "title": "Meridional derivative is exact on polynomials up to its order", "statement": "derivative_meridional(f, order) is linear in f and equals the exact derivative with respect to latitude at every latitude (poles included for 2D input) when f is a polynomial of degree <= order in latitude; 1D input gets 0 at both poles.", "quantifier": "all polynomials of degree <= order, all grids with uniform spacing", "why_tests_cant": "all coefficients and grid sizes", "anchors": ["src/barotropic/grid.py:Grid.derivative_meridional"]}
{"id": "C18", "title": "Meridional derivative has the advertised order of accuracy", "statement": "For smooth f, the error of derivative_meridional is bounded by a constant times dphi^order times the maximum of the (order+1)-th derivative.", "quantifier": "all sufficiently differentiable f, all grids", "why_tests_cant": "statement about all smooth functions", "anchors": ["src/barotropic/grid.py:Grid.derivative_meridional"]}
{"id": "C19", "title": "derivative_meridional rejects what it cannot do", "statement": "Orders other than 2, 4 and None raise NotImplementedError, grids with fewer latitudes than the stencil needs are refused, output shape equals input shape.", "quantifier": "all orders, all grids, all inputs", "why_tests_cant": "all orders and sizes", "anchors": ["src/barotropic/grid.py:Grid.derivative_meridional"]}
{"id": "C20", "title": "solve_poisson inverts laplace up to the global mean", "statement": "laplace_spectral(solve_poisson_spectral(f)) equals f in every coefficient except the global mean, which is zero; solve_poisson_spectral(laplace_spectral(f)) equals f with its mean removed; the mean of a solution is always zero.", "quantifier": "all spectral fields, all truncations and radii", "why_tests_cant": "all coefficient vectors of any length", "anchors": ["src/barotropic/grid.py:Grid.laplace_spectral", "src/barotropic/grid.py:Grid.solve_poisson_spectral"]}
{"id": "C21", "title": "solve_poisson with op_add solves (Laplacian - op_add) f = rhs", "statement": "The returned f satisfies the documented equation (laplace - op_add) f = rhs in every coefficient.", "quantifier": "all rhs, all op_add for which the operator is invertible", "why_tests_cant": "all op_add; the mean coefficient violates it", "anchors": ["src/barotropic/grid.py:Grid.solve_poisson_spectral"]}
{"id": "C22", "title": "solve_diffusion is an unconditionally stable implicit Euler step", "statement": "The result g of solve_diffusion_spectral satisfies g + dt*coeff*(-laplace)^order g = f; for dt*coeff >= 0 no coefficient grows in magnitude, larger degrees are damped at least as much as smaller ones, and for order >= 1 the mean is unchanged; with dt*coeff = 0 the field is unchanged.", "quantifier": "all fields, steps, coefficients, orders", "why_tests_cant": "all step sizes: unconditional stability", "anchors": ["src/barotropic/grid.py:Grid.solve_diffusion_spectral"]}
{"id": "C23", "title": "diffusion_bg protects the background field", "statement": "With diffusion_bg given, diffusion leaves a field equal to the background unchanged and acts on the deviation exactly like background-free diffusion; a zero background is the same as none.", "quantifier": "all fields and backgrounds", "why_tests_cant": "all fields", "anchors": ["src/barotropic/model.py:BarotropicModel._apply_diffusion"]}
{"id": "C24", "title": "Lazy evaluation of State fields is unobservable", "statement": "Whatever sequence of attribute reads is performed on a State, each read returns the value a freshly constructed State with the same PV would return; reads never change PV, grid or time.", "quantifier": "all read histories", "why_tests_cant": "exponentially many interleavings of lazy caches", "anchors": ["src/barotropic/state.py:State", "src/barotropic/state.py:_cached_property"]}
{"id": "C25", "title": "State constructors are mutually consistent", "statement": "Building a State from the pv, the vorticity or the winds of another State yields a State with the same pv, vorticity and winds (exact transforms assumed); PV minus planetary vorticity is the relative vorticity.", "quantifier": "all states", "why_tests_cant": "all fields", "anchors": ["src/barotropic/state.py:State.from_wind", "src/barotropic/state.py:State.from_vorticity", "src/barotropic/state.py:State.__init__"]}
{"id": "C26", "title": "add_wind and add_vorticity add", "statement": "s.add_vorticity(x) has the vorticity of s plus x, and s.add_wind(x) has the wind of s plus x, whether x is given as a State or as field(s), at the time of s.", "quantifier": "all states and all second operands", "why_tests_cant": "all operands; the tuple branch of add_wind is untested", "anchors": ["src/barotropic/state.py:State.add_wind", "src/barotropic/state.py:State.add_vorticity"]}
{"id": "C27", "title": "Grid.vorticity_divergence returns the two gridded fields", "statement": "vorticity_divergence(u, v) returns (vorticity(u, v), divergence(u, v)).", "quantifier": "all inputs", "why_tests_cant": "never executed by any test", "anchors": ["src/barotropic/grid.py:Grid.vorticity_divergence"]}
{"id": "C28", "title": "as_hn2016 / from_hn2016 round trip", "statement": "from_hn2016(grid, time, s.as_hn2016()) reproduces the PV of s; latitudes handed over start at the South Pole.", "quantifier": "all states", "why_tests_cant": "optional dependency, not tested; all fields", "anchors": ["src/barotropic/state.py:State.as_hn2016", "src/barotropic/state.py:State.from_hn2016"]}
{"id": "C29", "title": "Enstrophy and energy are non-negative and decompose", "statement": "energy, enstrophy, eddy_enstrophy are non-negative everywhere; eddy_enstrophy vanishes exactly for zonally symmetric PV; the zonal mean of enstrophy is the enstrophy of the zonal mean plus the zonal mean of eddy_enstrophy.", "quantifier": "all states", "why_tests_cant": "all fields", "anchors": ["src/barotropic/state.py:State.enstrophy", "src/barotropic/state.py:State.eddy_enstrophy", "src/barotropic/state.py:State.energy"]}
{"id": "C30", "title": "run stops at the first step that reaches tend", "statement": "With dt > 0 and tend >= initial time, run returns a state whose time is init.time + N*dt for the smallest N with that time >= tend; the returned state is N leapfrog steps from the initial state; for tend < init.time the initial state is returned untouched.", "quantifier": "all initial times, dt > 0, tend; any number of steps; numbers or datetime/timedelta", "why_tests_cant": "unbounded number of steps", "anchors": ["src/barotropic/model.py:BarotropicModel.run"]}
{"id": "C31", "title": "run terminates", "statement": "run terminates for every dt > 0 (and does not for dt <= 0 with tend in the future).", "quantifier": "all dt, all times, exact and double-precision time", "why_tests_cant": "termination is not testable", "anchors": ["src/barotropic/model.py:BarotropicModel.run"]}
{"id": "C32", "title": "save_every returns one state per elapsed save interval", "statement": "run returns the initial state first and then, for dt <= save_every, for every k >= 1 the first state at least k*save_every after the start of the integration; nothing else is saved; save_every = 0 saves only the initial state.", "quantifier": "all start times, dt, tend, save_every", "why_tests_cant": "all histories; non-zero start times are untested", "anchors": ["src/barotropic/model.py:BarotropicModel.run"]}
{"id": "C33", "title": "A longer integration extends a shorter one", "statement": "Running the same model from the same state with the same dt and save_every to a later tend returns a list of states that starts with the list of the shorter run, and passes through the final state of the shorter run.", "quantifier": "all pairs tend1 <= tend2", "why_tests_cant": "relation between two unbounded runs", "anchors": ["src/barotropic/model.py:BarotropicModel.run"]}
{"id": "C34", "title": "Global mean PV is conserved without forcing", "statement": "Without forcing, every state visited and saved by run (Euler start, leapfrog, Robert-Asselin filter, diffusion of order >= 1) has the same global-mean PV coefficient as the initial state.", "quantifier": "all initial states, all run lengths", "why_tests_cant": "invariant over unbounded runs", "anchors": ["src/barotropic/model.py:BarotropicModel.run", "src/barotropic/model.py:BarotropicModel.leapfrog", "src/barotropic/model.py:BarotropicModel.euler"]}
{"id": "C35", "title": "A motionless atmosphere stays motionless", "statement": "Without forcing, run started from init.motionless produces only motionless states.", "quantifier": "all run lengths, all diffusion settings", "why_tests_cant": "unbounded runs; false unless diffusion spares planetary vorticity", "anchors": ["src/barotropic/init.py:motionless", "src/barotropic/model.py:BarotropicModel.run"]}
{"id": "C36", "title": "leapfrog step structure", "statement": "leapfrog(old, now) returns a filtered state at now.time and a new state at now.time + (now.time - old.time); filter_parameter 0 leaves the current state unchanged; the filter does not change states on a straight line in time, and without forcing, flow and diffusion damps the computational mode by (1 - 2*filter_parameter) per step.", "quantifier": "all states, all filter parameters", "why_tests_cant": "all states", "anchors": ["src/barotropic/model.py:BarotropicModel.leapfrog"]}
{"id": "C37", "title": "run always returns a (State, StateList) pair", "statement": "The second result of run is a StateList containing at least the initial state.", "quantifier": "all arguments", "why_tests_cant": "the early-return branch is untested", "anchors": ["src/barotropic/model.py:BarotropicModel.run"]}
{"id": "C38", "title": "Time units: number of seconds and timedelta are interchangeable", "statement": "Integrating with datetime time and timedelta dt produces the same PV fields as integrating with the equivalent numbers of seconds; mixing the two raises TypeError.", "quantifier": "all runs", "why_tests_cant": "unbounded runs", "anchors": ["src/barotropic/model.py:_to_seconds", "src/barotropic/model.py:BarotropicModel.run"]}
{"id": "C39", "title": "Forcing terms compose pointwise", "statement": "(a + b)(s) == a(s) + b(s) and (a * b)(s) == a(s) * b(s) for arbitrarily nested expressions of forcing terms; numbers can be added and multiplied as well.", "quantifier": "all expression trees", "why_tests_cant": "all expression trees; numeric operands untested", "anchors": ["src/barotropic/rhs.py:RHS", "src/barotropic/rhs.py:_RHSSum", "src/barotropic/rhs.py:_RHSProduct"]}
{"id": "C40", "title": "TimedOffSwitch is on up to and including tend and off forever after", "statement": "For a sequence of states ordered in time the switch yields 1 up to tend inclusive, then 0 for all later states; multiplying a term by it equals the term or zero.", "quantifier": "all times, all terms", "why_tests_cant": "all times", "anchors": ["src/barotropic/rhs.py:TimedOffSwitch"]}
{"id": "C41", "title": "LinearRelaxation relaxes towards the reference", "statement": "The forcing vanishes exactly where PV equals the reference (rate != 0), and an Euler step of size dt with 0 <= rate*dt <= 1 shrinks the deviation by the factor (1 - rate*dt) without overshoot.", "quantifier": "all fields, rates, steps", "why_tests_cant": "all fields", "anchors": ["src/barotropic/rhs.py:LinearRelaxation"]}
{"id": "C42", "title": "Orography interpolation is exact on nodes and never overshoots", "statement": "Orography.orography on a grid whose coordinates coincide with the given lon/lat returns the given field; all interpolated heights lie between the minimum and maximum of the given field.", "quantifier": "all orography fields, all grids", "why_tests_cant": "all fields", "anchors": ["src/barotropic/rhs.py:Orography.orography"]}
{"id": "C43", "title": "Orographic forcing is -f/H u.grad(h) for every wind option", "statement": "The forcing is linear in the wind factor, zero for flat orography, independent of the state for 'sbr' wind, independent of meridional wind for 'zon', uses the given constant Coriolis parameter if fcor_ref is given; unknown wind kinds raise ValueError at construction.", "quantifier": "all states, all orographies", "why_tests_cant": "all states", "anchors": ["src/barotropic/rhs.py:Orography.__call__", "src/barotropic/rhs.py:Orography.__init__"]}
{"id": "C44", "title": "Caching of the orography gradient is unobservable", "statement": "The gradient used for a (term, grid) pair equals the freshly computed one after any sequence of evaluations of any number of orographic terms on any number of grids (cache of 8 entries with eviction).", "quantifier": "all call histories", "why_tests_cant": "unbounded histories with eviction", "anchors": ["src/barotropic/rhs.py:Orography._orography_gradient"]}
{"id": "C45", "title": "GaussianMountain is a 360-degree periodic mountain", "statement": "The height lies in (0, height], reaches height at the centre, and depends on longitude only through the angular distance to the centre.", "quantifier": "all centres and widths", "why_tests_cant": "continuum of centres; mountains near 0E untested", "anchors": ["src/barotropic/rhs.py:GaussianMountain.orography"]}
{"id": "C46", "title": "ZonalSineMountains is periodic and bounded", "statement": "The height lies in [0, height], is periodic with 360/wavenumber degrees in longitude and continuous across 0E for integer wavenumber.", "quantifier": "all wavenumbers", "why_tests_cant": "all wavenumbers", "anchors": ["src/barotropic/rhs.py:ZonalSineMountains.orography"]}
{"id": "C47", "title": "Latitude selection is inclusive and order-insensitive", "statement": "grid.region[:, a:b] selects exactly the grid latitudes between min(a,b) and max(a,b) inclusive, from north to south, each once; open ends, 'N' and 'S' behave accordingly.", "quantifier": "all grids and bounds", "why_tests_cant": "all real bounds", "anchors": ["src/barotropic/grid.py:GridRegionIndexer._get_lat_indices"]}
{"id": "C48", "title": "Longitude selection is inclusive and wraps eastward across 0E", "statement": "grid.region[a:b, :] selects exactly the grid longitudes in [a, b], or for b < a those in [a, 360) followed by those in [0, b], each once and in eastward order.", "quantifier": "all grids and bounds", "why_tests_cant": "all real bounds including wrap-around", "anchors": ["src/barotropic/grid.py:GridRegionIndexer._get_lon_indices"]}
{"id": "C49", "title": "lon_mono is strictly increasing and equal to lon modulo 360", "statement": "For every region made with grid.region, lon_mono never fails, is strictly increasing, spans less than 360 degrees, and differs from lon by 0 or 360 in each entry.", "quantifier": "all selections", "why_tests_cant": "all selections", "anchors": ["src/barotropic/grid.py:GridRegion.lon_mono"]}
{"id": "C50", "title": "extract, mask, shape, lat and lon of a region agree", "statement": "extract(field)[i,j] is the field value at (lat[i], lon[j]); mask is True exactly on selected gridpoints; the number of True entries equals the product of shape; profiles are routed to the right axis; multi-field extraction preserves order; wrong shapes raise ValueError.", "quantifier": "all regions and fields", "why_tests_cant": "all selections and fields", "anchors": ["src/barotropic/grid.py:GridRegion"]}
{"id": "C51", "title": "Single-value and malformed selections", "statement": "A number selects exactly one grid coordinate or raises IndexError; strings, steps, non-numeric bounds and more than two dimensions raise IndexError; repr of any region succeeds.", "quantifier": "all selections", "why_tests_cant": "unbounded set of malformed selections; empty-region repr untested", "anchors": ["src/barotropic/grid.py:GridRegionIndexer.__getitem__", "src/barotropic/formatting.py:grid_region_repr"]}
{"id": "C52", "title": "StateList accepts exactly sequences of States on one grid", "statement": "The constructor raises TypeError for non-States and AssertionError for a State on a different grid; an accepted list contains States with pairwise equal grids in input order.", "quantifier": "all sequences", "why_tests_cant": "all sequences; non-transitivity of tolerance-based grid equality", "anchors": ["src/barotropic/state.py:StateList.__init__"]}
{"id": "C53", "title": "StateList is a sequence", "statement": "len, iteration, indexing and + agree with the list of states: + concatenates, is associative with the empty StateList as identity, and every operation that selects several states returns a StateList.", "quantifier": "all lists", "why_tests_cant": "all lists", "anchors": ["src/barotropic/state.py:StateList.__add__", "src/barotropic/state.py:StateList.__getitem__"]}
{"id": "C54", "title": "Attribute broadcasting equals element-wise access", "statement": "states.attr[i] equals states[i].attr for every attribute, states.method(args)[i] equals states[i].method(args); the container is a StateList for States, an array for numbers/arrays and a list otherwise, for lists of every length including zero.", "quantifier": "all lists, attributes and functions", "why_tests_cant": "all lists incl. empty and mixed", "anchors": ["src/barotropic/state.py:StateList.__getattr__", "src/barotropic/state.py:_convert_sequence", "src/barotropic/state.py:StateList.map"]}
{"id": "C55", "title": "StateList.run equals running each state separately", "statement": "states.run(model, ...) returns exactly the final states and the saved lists of model.run applied to each state, in order.", "quantifier": "all lists", "why_tests_cant": "all lists", "anchors": ["src/barotropic/state.py:StateList.run"]}
{"id": "C56", "title": "from_dataset builds States on a grid with the dataset's coordinates", "statement": "If from_dataset accepts the coordinates of a dataset, the grid of the returned states has the same number of latitudes and longitudes and the same coordinate values as the dataset.", "quantifier": "all datasets", "why_tests_cant": "acceptance tolerance vs truncation; offset coordinates untested", "anchors": ["src/barotropic/io.py:from_dataset"]}
{"id": "C57", "title": "from_dataset rejects irregular grids", "statement": "Datasets with missing lon/lat coordinates, unequal spacing, westward longitudes, northward latitudes, regional extent or mismatched lon/lat spacing raise instead of returning states.", "quantifier": "all coordinate arrays", "why_tests_cant": "all coordinate arrays", "anchors": ["src/barotropic/io.py:from_dataset"]}
{"id": "C58", "title": "from_dataset flattens all extra dimensions in row-major order", "statement": "The number of returned states is the product of the sizes of the extra dimensions, state number i holds the i-th lon-lat slab in row-major order with its own time coordinate (or time_fill when there is none).", "quantifier": "all numbers and sizes of extra dimensions", "why_tests_cant": "arbitrary rank", "anchors": ["src/barotropic/io.py:from_dataset"]}
{"id": "C59", "title": "from_dataset construction priority and name detection", "statement": "Wind is used if both components are available, otherwise relative vorticity, otherwise absolute vorticity, otherwise ValueError; override names win over detection; earlier names in the documented order win over later ones.", "quantifier": "all sets of available variables and overrides", "why_tests_cant": "exponentially many combinations", "anchors": ["src/barotropic/io.py:from_dataset", "src/barotropic/io.py:_select_var"]}
{"id": "C60", "title": "as_dataset assigns dimensions by shape", "statement": "Every exported variable has the concatenation dimension first, followed by latitude/longitude according to the shape of the extracted field, never confusing latitude with longitude; unsupported shapes raise NotImplementedError; no states give an empty dataset.", "quantifier": "all field shapes, all grids", "why_tests_cant": "all shapes and grids", "anchors": ["src/barotropic/io.py:as_dataset"]}
{"id": "C61", "title": "as_dataset followed by from_dataset restores the states", "statement": "from_dataset(as_dataset(states)) returns as many states with the same times and (exact transforms assumed) the same PV.", "quantifier": "all StateLists", "why_tests_cant": "all lists incl. equal times and single states", "anchors": ["src/barotropic/io.py:as_dataset", "src/barotropic/io.py:from_dataset"]}
{"id": "C62", "title": "Filter windows have odd width and unit sum", "statement": "get_filter_window returns an odd number of points within 1.5 gridpoints of the requested width, non-negative and summing to 1, for boxcar, triangular and Hann windows.", "quantifier": "all widths and resolutions", "why_tests_cant": "all widths", "anchors": ["src/barotropic/grid.py:Grid.get_filter_window"]}
{"id": "C63", "title": "filter_zonal is a periodic, mean-preserving, non-amplifying smoother", "statement": "With a window summing to 1 filter_zonal preserves constants and the zonal mean, commutes with rotations about the polar axis, is linear, and with a non-negative window never exceeds the range of the data.", "quantifier": "all fields and windows", "why_tests_cant": "all fields and windows", "anchors": ["src/barotropic/grid.py:Grid.filter_zonal"]}
{"id": "C64", "title": "filter_meridional preserves constants and the range of the data", "statement": "With a non-negative window of unit sum filter_meridional maps constants to themselves, stays in the range of the data, treats 2D fields column by column and commutes with the north-south reflection for symmetric odd windows.", "quantifier": "all fields and windows", "why_tests_cant": "all fields and windows", "anchors": ["src/barotropic/grid.py:Grid.filter_meridional"]}
{"id": "C65", "title": "filter_by_wavenumber applies at each point the Hann window of that point's wavenumber", "statement": "The value at (i,j) is the zonal periodic Hann average of the row with the odd width 2*floor(nlon/k)+1 for the wavenumber k clipped to [1, nlon/2] at that point; constants are preserved, the range is not exceeded, and 1D wavenumbers act like the broadcast 2D field.", "quantifier": "all fields and wavenumber fields", "why_tests_cant": "all fields", "anchors": ["src/barotropic/diagnostics.py:filter_by_wavenumber"]}
{"id": "C66", "title": "Zonal Fourier restriction keeps exactly the requested wavenumbers", "statement": "Restricting the zonal spectrum to [kmin, kmax] reproduces waves inside the range, removes waves outside, is linear and idempotent, and keeps the shape of the field.", "quantifier": "all fields, all ranges, all nlon", "why_tests_cant": "all fields; odd nlon untested", "anchors": ["src/barotropic/diagnostics.py:_restrict_fourier_zonal"]}
{"id": "C67", "title": "envelope_hilbert of a wave is its amplitude", "statement": "For a single zonal wave inside the wavenumber range the envelope is its constant amplitude, for waves outside the range it is zero, and the envelope is nowhere smaller than the absolute value of the band-passed field.", "quantifier": "all amplitudes, phases, wavenumbers", "why_tests_cant": "all amplitudes and phases", "anchors": ["src/barotropic/diagnostics.py:envelope_hilbert"]}
{"id": "C68", "title": "dominant_wavenumber_fourier returns the wavenumber of maximum power", "statement": "Without smoothing the result at each latitude is the wavenumber in the given range with the largest Fourier power at that latitude.", "quantifier": "all fields and ranges", "why_tests_cant": "all fields and ranges", "anchors": ["src/barotropic/diagnostics.py:dominant_wavenumber_fourier"]}
{"id": "C69", "title": "FALWA is non-negative", "statement": "diagnostics.falwa is >= 0 at every longitude and equivalent latitude for both quadrature schemes, also after interpolation to the grid.", "quantifier": "all PV fields and contour levels", "why_tests_cant": "all PV fields", "anchors": ["src/barotropic/diagnostics.py:falwa"]}
{"id": "C70", "title": "FALWA vanishes for zonally symmetric monotone PV", "statement": "If PV depends on latitude only and strictly decreases southward, falwa (sptrapz) is identically zero.", "quantifier": "all monotone zonal PV profiles", "why_tests_cant": "all profiles, exact cancellation", "anchors": ["src/barotropic/diagnostics.py:falwa"]}
{"id": "C71", "title": "State.fawa equals diagnostics.fawa", "statement": "The zonal mean of interpolated FALWA (State.fawa) equals the interpolated zonal mean of FALWA (diagnostics.fawa).", "quantifier": "all states", "why_tests_cant": "identity over all fields", "anchors": ["src/barotropic/state.py:State.fawa", "src/barotropic/diagnostics.py:fawa"]}
{"id": "C72", "title": "The three variants of the stationary wavenumber agree", "statement": "'real' carries the sign of 'squared' and its square is the absolute value of 'squared'; 'complex' squared is 'squared'; at every latitude exactly one of the real and imaginary part of 'complex' can be non-zero; infinite where and only where u is small and the PV gradient is non-zero, never NaN; unknown kinds raise ValueError.", "quantifier": "all wind and PV profiles", "why_tests_cant": "all profiles incl. zeros", "anchors": ["src/barotropic/diagnostics.py:stationary_wavenumber"]}
{"id": "C73", "title": "Waveguides are ordered, disjoint and inside the domain", "statement": "extract_ks_waveguides returns intervals (start, end) from north to south with 90 >= start >= end >= -90, consecutive intervals not overlapping.", "quantifier": "all profiles and wavenumbers", "why_tests_cant": "all profiles of any length", "anchors": ["src/barotropic/diagnostics.py:extract_ks_waveguides"]}
{"id": "C74", "title": "Waveguides contain exactly the latitudes with Ks above k", "statement": "Every grid latitude with Ks > k lies in a returned waveguide, no grid latitude with Ks < k lies in one, and the inner boundaries are the linear-interpolation crossings of Ks with k.", "quantifier": "all profiles and wavenumbers", "why_tests_cant": "all profiles", "anchors": ["src/barotropic/diagnostics.py:extract_ks_waveguides"]}
{"id": "C75", "title": "Waveguide boundaries are never NaN", "statement": "All boundaries returned for a NaN-free profile (infinite values allowed, as produced by stationary_wavenumber) are finite numbers.", "quantifier": "all profiles with infinities", "why_tests_cant": "all profiles", "anchors": ["src/barotropic/diagnostics.py:extract_ks_waveguides"]}
{"id": "C76", "title": "zonally_symmetric broadcasts the profile along longitude", "statement": "The PV (or wind) used to build the state has profile[i] at every longitude of latitude i; profiles of wrong size are rejected, and giving both or neither of u and pv raises ValueError.", "quantifier": "all profiles and grids", "why_tests_cant": "all profiles", "anchors": ["src/barotropic/init.py:zonally_symmetric"]}
{"id": "C77", "title": "Initial jets vanish at the poles", "statement": "The zonal wind of gaussian_jet, held_1985 and solid_body_rotation is exactly zero at both poles for all parameters; solid_body_rotation is largest at the equator; all are zonally symmetric with v = 0.", "quantifier": "all parameters and grids", "why_tests_cant": "all parameters", "anchors": ["src/barotropic/init.py:gaussian_jet", "src/barotropic/init.py:held_1985", "src/barotropic/init.py:solid_body_rotation"]}
{"id": "C78", "title": "format_time shows the same instant in a larger unit", "statement": "The number and unit shown for a numeric time denote the same duration in seconds, the unit is the documented cascade (s up to 120, min up to 120, h up to 240, then d), and every State can be displayed.", "quantifier": "all times, including those produced by from_dataset", "why_tests_cant": "all times; 0-d array times untested", "anchors": ["src/barotropic/formatting.py:format_time", "src/barotropic/formatting.py:state_repr"]}
{"id": "C79", "title": "sub/sup translation is faithful", "statement": "Sub- and superscript translation of integers preserves length and is injective.", "quantifier": "all integers", "why_tests_cant": "all integers", "anchors": ["src/barotropic/formatting.py:sub", "src/barotropic/formatting.py:sup"]}
{"id": "C80", "title": "roll_lon centres the requested meridian and labels stay correct", "statement": "After rolling, the column in the middle of the array is the one closest to the requested longitude, the roll is a rotation, and the axis label offset gives every column its true longitude.", "quantifier": "all grids and centre longitudes", "why_tests_cant": "all centres; near-360 centres untested", "anchors": ["src/barotropic/plot.py:roll_lon", "src/barotropic/plot.py:configure_lon_x"]}
{"id": "C81", "title": "symmetric_levels are symmetric, increasing and cover the data", "statement": "The levels are antisymmetric about 0, strictly increasing and (without override) enclose all data values, for every field and n >= 2.", "quantifier": "all fields", "why_tests_cant": "all fields", "anchors": ["src/barotropic/plot.py:symmetric_levels"]}
{"id": "C82", "title": "Waveguide plot ticks include 0", "statement": "The wavenumber ticks are equally spaced integers and contain 0 whenever 0 is in the displayed range.", "quantifier": "all axis bounds", "why_tests_cant": "all bounds", "anchors": ["src/barotropic/plot.py:waveguides"]}
{"id": "C83", "title": "reduce_vectors subsamples all inputs identically", "statement": "All four outputs are taken at the same gridpoints, with the same stride in both directions, at least one point is kept, and the number of rows kept is within the expected bounds.", "quantifier": "all shapes and ny", "why_tests_cant": "all shapes", "anchors": ["src/barotropic/plot.py:reduce_vectors"]}
{"id": "C84", "title": "hovmoellerify places time on the documented axis", "statement": "Meridional profiles give (times, lat, field[lat,time]), zonal profiles (lon, times, field[time,lon]); other sizes and no states raise ValueError.", "quantifier": "all state sequences", "why_tests_cant": "all sequences", "anchors": ["src/barotropic/plot.py:hovmoellerify"]}
{"id": "C85", "title": "The text map of a region marks exactly the boxes that contain selected points", "statement": "In repr(region) the character in row k and column l is X exactly if the region has a latitude in the k-th 20-degree band from the north and a longitude in the l-th 10-degree band eastward from 0.", "quantifier": "all non-empty regions", "why_tests_cant": "all regions", "anchors": ["src/barotropic/formatting.py:grid_region_repr"]}
{"id": "C86", "title": "Averaging an extracted field equals averaging the full field in the region", "statement": "grid.mean(region.extract(field), axis, region=region) equals grid.mean(field, axis, region=region).", "quantifier": "all regions, fields and axes", "why_tests_cant": "full-width regions that wrap across 0E untested", "anchors": ["src/barotropic/grid.py:Grid.mean", "src/barotropic/grid.py:GridRegion.extract"]}
{"id": "C87", "title": "boxcount quadrature is the exact integral of the nearest-gridpoint step function", "statement": "quad_meridional(y, z, 'boxcount') returns for every longitude exactly the integral over latitude of r*Y(phi)*cos(phi) restricted to Z(phi) >= 0 where Y and Z take at every latitude the value of the nearest gridpoint.", "quantifier": "all fields y and z, all grids", "why_tests_cant": "equality of a finite sum with an integral for all real data", "anchors": ["src/barotropic/grid.py:Grid.quad_meridional", "src/barotropic/grid.py:Grid.gridpoint_area"]}
{"id": "C88", "title": "Every time step solves the semi-implicit scheme coefficient by coefficient", "statement": "Without diffusion background, an Euler step of dt seconds satisfies (1 + dt*coeff*(n(n+1)/r^2)^order) * q_new = q + dt*tendency for every spectral coefficient of degree n, and a leapfrog step the same equation with q of the old state, the tendency of the current state and 2*dt; the tendency is minus the divergence of the PV flux plus the transformed forcing.", "quantifier": "all states, forcings, steps and diffusion orders", "why_tests_cant": "identity over all coefficients and states", "anchors": ["src/barotropic/model.py:BarotropicModel.euler", "src/barotropic/model.py:BarotropicModel.leapfrog", "src/barotropic/model.py:BarotropicModel._pv_tendency_spectral"]}
{"id": "C89", "title": "Grid.wind inverts vorticity and divergence, gridded or spectral", "statement": "The wind computed from vorticity and divergence has that vorticity and divergence up to their global means, which are dropped; gridded and spectral arguments standing for the same field give the same wind; vorticity and divergence are the gridded counterparts of vorticity_spectral and divergence_spectral.", "quantifier": "all resolved vorticity and divergence fields, each gridded or spectral, on all grids", "why_tests_cant": "all combinations of gridded and spectral input; inversion identity over all fields", "anchors": ["src/barotropic/grid.py:Grid.wind", "src/barotropic/grid.py:Grid.vorticity", "src/barotropic/grid.py:Grid.divergence"]}
{"id": "C90", "title": "The gridded Laplacian, Poisson and diffusion solvers act on the spectrum like the spectral ones", "statement": "laplace multiplies coefficient n by -n(n+1)/r^2; laplace and solve_poisson are inverse to each other up to mean and truncation, and commute; solve_poisson with op_add solves (laplace - op_add) f = rhs except in the mean; solve_diffusion solves the implicit Euler equation.", "quantifier": "all gridded fields (resolved or not), all grids", "why_tests_cant": "identities over all fields", "anchors": ["src/barotropic/grid.py:Grid.laplace", "src/barotropic/grid.py:Grid.solve_poisson", "src/barotropic/grid.py:Grid.solve_diffusion"]}
{"id": "C91", "title": "The gradient has no curl, its divergence is the Laplacian, and constants do not matter", "statement": "vorticity(gradient(f)) is zero, divergence(gradient(f)) = laplace(f), gradient(f + c) = gradient(f).", "quantifier": "all gridded fields and constants", "why_tests_cant": "identities over all fields", "anchors": ["src/barotropic/grid.py:Grid.gradient", "src/barotropic/grid.py:Grid.laplace"]}
{"id": "C92", "title": "quad_meridional accepts exactly the fields with the latitudes of the grid", "statement": "Without z, quad_meridional succeeds exactly if the field is 2D with nlat rows and the method is boxcount, or sptrapz with at most nlon columns; wrong rank or rows raise AssertionError, unknown methods and too wide fields ValueError; the result has one value per column. With a domain field z, sptrapz succeeds exactly if z has the shape of the field and raises IndexError otherwise.", "quantifier": "all arrays, methods and grids", "why_tests_cant": "the set of all shapes and method names is infinite", "anchors": ["src/barotropic/grid.py:Grid.quad_meridional"]}
{"id": "C93", "title": "The wavelet dominant wavenumber is that of the scale with the largest power", "statement": "dominant_wavenumber_wavelet assigns every gridpoint the wavenumber of the first of the 120 logarithmically spaced scales with the largest wavelet power of the periodically continued row after removal of wavenumbers above 20; the result lies between the wavenumbers of the largest and the smallest scale, also after smoothing, and the scales meet each wavenumber from 1 to 20 within a factor of 1.02.", "quantifier": "all fields, grids and wavelet transforms", "why_tests_cant": "argmax over all fields and all wavelet transforms", "anchors": ["src/barotropic/diagnostics.py:dominant_wavenumber_wavelet"]}
{"id": "C94", "title": "zonalize gives a profile that decreases from the north pole to the south pole and preserves the areas", "statement": "For contour levels that increase within the range of the field (so for automatic levels) zonalize returns a profile that does not increase southward, with the maximum of the field at the north pole and the minimum at the south pole, whose value at the latitude of every gridpoint lies above a contour exactly if the area enclosed by the contour reaches beyond that latitude; constant fields give constant profiles.", "quantifier": "all fields, levels within the range, quadrature methods and grids", "why_tests_cant": "areas under contours of arbitrary fields", "anchors": ["src/barotropic/grid.py:Grid.zonalize"]}
{"id": "C95", "title": "A State is made from exactly one of PV and spectral PV and keeps what it is given", "statement": "State(grid, time, pv, pv_spectral) succeeds exactly if one of pv and pv_spectral is given, both raise AssertionError; grid, time and spectral PV are those passed, the gridded PV has the spectrum of the PV passed and is the PV passed if it is resolved.", "quantifier": "all arguments", "why_tests_cant": "all combinations and fields", "anchors": ["src/barotropic/state.py:State.__init__", "src/barotropic/state.py:State.pv", "src/barotropic/state.py:State.pv_spectral"]}
{"id": "C96", "title": "The panels of the figures show the fields of the state at the labelled coordinates", "statement": "In summary, wave_activity and rwp_diagnostics every contour plot shows at the coordinates of a gridpoint, after the longitude relabelling of the axis, the value of the plotted field at that gridpoint; wind vectors are drawn at the gridpoint they belong to; the profile panels show the zonal means, with potential = planetary + relative vorticity.", "quantifier": "all states, centre longitudes and hemispheres", "why_tests_cant": "figures are only inspected by eye", "anchors": ["src/barotropic/plot.py:summary", "src/barotropic/plot.py:wave_activity", "src/barotropic/plot.py:rwp_diagnostics"]}
{"id": "C97", "title": "Every state can be plotted", "statement": "summary, wave_activity and rwp_diagnostics return a figure for every state, centre longitude and hemisphere and every non-negative colour range.", "quantifier": "all states", "why_tests_cant": "degenerate states (rest, zonally symmetric) are easily missed", "anchors": ["src/barotropic/plot.py:summary", "src/barotropic/plot.py:wave_activity", "src/barotropic/plot.py:rwp_diagnostics"]}
{"id": "C98", "title": "All panels of a figure show the requested hemisphere", "statement": "hemisphere 'N' limits the latitudes shown in every panel to the northern hemisphere, 'S' to the southern hemisphere, anything else shows all latitudes.", "quantifier": "all figures, states and values of hemisphere", "why_tests_cant": "all panels of all figures", "anchors": ["src/barotropic/plot.py:summary", "src/barotropic/plot.py:wave_activity", "src/barotropic/plot.py:rwp_diagnostics", "src/barotropic/plot.py:waveguides"]}
{"id": "C99", "title": "The waveguide figure draws one vertical line segment per waveguide", "statement": "For every requested wavenumber the figure shows exactly the line segments (k, south)-(k, north) of the waveguides that extract_ks_waveguides finds, not connected with each other, beside the stationary wavenumber and the zonal-mean wind.", "quantifier": "all states and wavenumbers", "why_tests_cant": "NaN-separated polylines for any number of waveguides", "anchors": ["src/barotropic/plot.py:waveguides"]}
{"id": "C100", "title": "The representation of a model shows the equation that the model integrates", "statement": "repr(model) shows ∂q/∂t = -∇(u·q) - κ∇ⁿq + RHS with an exponent n that is twice the diffusion order, and one time step of the model without diffusion background solves this equation with the diffusion term taken at the new time.", "quantifier": "all models, states, time steps", "why_tests_cant": "equality of a printed operator and the executed one over all orders and states", "anchors": ["src/barotropic/formatting.py:barotropic_model_repr", "src/barotropic/model.py:BarotropicModel.euler"]}
{"id": "C101", "title": "The representation of a forcing expression is unambiguous", "statement": "Two right-hand-side expressions built with + and * with the same repr are the same expression of the same terms, if the texts of the terms contain no parentheses and no ' +' or ' *' and determine the terms. Sums and products are shown in parentheses with the operands in the order in which they are written.", "quantifier": "all expressions of any depth", "why_tests_cant": "unbounded nesting", "anchors": ["src/barotropic/rhs.py:_RHSSum.__repr__", "src/barotropic/rhs.py:_RHSProduct.__repr__"]}
{"id": "C102", "title": "The representation of a grid identifies the grid", "statement": "Two grids with the same repr have the same size, resolution, planet and truncation, and store Legendre functions in the same way, if floats are printed faithfully on one line.", "quantifier": "all grids", "why_tests_cant": "all pairs of grids", "anchors": ["src/barotropic/formatting.py:grid_repr"]}
{"id": "C103", "title": "Phase-filtered wave activity keeps the zonal mean and is filtered with the doubled dominant wavenumber", "statement": "State.falwa_filtered is at each latitude a Hann-weighted running mean of FALWA whose window reaches over one wavelength of the doubled dominant wavenumber of v to both sides; its zonal mean is State.fawa, it stays within the range of FALWA on the latitude and is not negative.", "quantifier": "all states with FALWA free of NaN", "why_tests_cant": "identity of means over all fields and window widths", "anchors": ["src/barotropic/state.py:State.falwa_filtered"]}
{"id": "C104", "title": "State.v_envelope_hilbert is the envelope of the waves in v with wavenumbers 2 to 10", "statement": "For v made of a single wave per latitude the envelope is its amplitude if the wavenumber is 2 to 10 and zero otherwise; for any v it has the shape of the grid and bounds the part of v with wavenumbers 2 to 10.", "quantifier": "all states and wavenumbers", "why_tests_cant": "all fields", "anchors": ["src/barotropic/state.py:State.v_envelope_hilbert"]}
{"id": "C105", "title": "from_hn2016 without a grid recovers the state given to as_hn2016", "statement": "State.from_hn2016(None, time, state.as_hn2016()) creates a grid that matches the input and gives a state with the PV and the grid of the original state.", "quantifier": "all grids and states", "why_tests_cant": "all resolutions", "anchors": ["src/barotropic/state.py:State.from_hn2016", "src/barotropic/state.py:State.as_hn2016"]}
{"id": "C106", "title": "In double precision the shape of a grid is exact up to one rounding", "statement": "For every double resolution, nlon (nlat - 1) computed in IEEE double arithmetic is the integer part of 360/resolution (180/resolution), or the integer above if the quotient falls short of it by less than half a unit in the last place; it is exact if the resolution divides the circle, and for resolutions computed as 180/n or 360/n it is n (2n) or one less.", "quantifier": "every positive double resolution with quotient below 2^52; all n up to 2^49", "why_tests_cant": "2^63 floats; deviations only at isolated resolutions", "anchors": ["src/barotropic/grid.py:Grid.__init__"]}
{"id": "C107", "title": "Integrations with integer times are not affected by rounding of the clock", "statement": "If initial time, time step, end time and save interval are integers, or integer multiples of a common power of two, that fit into 53 bits, BarotropicModel.run gives in double precision the same states, times, saved states and exceptions as with exact times, and it ends.", "quantifier": "all models, states and such times", "why_tests_cant": "times and step lengths are recomputed from rounded differences at every step", "anchors": ["src/barotropic/model.py:BarotropicModel.run", "src/barotropic/model.py:BarotropicModel.leapfrog"]}
{"id": "C108", "title": "In double precision the clock of an integration drifts only slightly and reaches the end time", "statement": "leapfrog recomputes the time step from two rounded times, so the length of the steps drifts. For time steps of any value, step n deviates from dt by at most (n+1)*S*2^-49*dt and the time by n^2*S*2^-49*dt (S: bound on number of steps and initial time in steps, up to 2^24), and run ends less than 1.5 dt after the requested time if start and end are at most 2^21 steps from time 0.", "quantifier": "all doubles within these bounds", "why_tests_cant": "accumulated rounding over millions of steps", "anchors": ["src/barotropic/model.py:BarotropicModel.run", "src/barotropic/model.py:BarotropicModel.leapfrog"]}
{"id": "C109", "title": "Wave activity and zonalization do not depend on the choice of the first longitude", "statement": "Renumbering (in particular rotating) the longitudes of a PV field renumbers its local wave activity (falwa) in the same way and leaves fawa, zonalize and quad unchanged.", "quantifier": "all grids, fields, quadratures, levels and permutations of the longitudes", "why_tests_cant": "all permutations", "anchors": ["src/barotropic/diagnostics.py:falwa", "src/barotropic/diagnostics.py:fawa", "src/barotropic/grid.py:Grid.zonalize", "src/barotropic/grid.py:Grid.quad"]}
{"id": "C110", "title": "Wave activity scales with the unit of PV and does not depend on its zero", "statement": "For a > 0, falwa and fawa of a*q+b are a times those of q, at the same equivalent latitudes, and zonalize gives a*Q+b; failures stay failures.", "quantifier": "all fields, levels, quadratures, a > 0 and b", "why_tests_cant": "comparisons with thresholds and sorting under all rescalings", "anchors": ["src/barotropic/diagnostics.py:falwa", "src/barotropic/diagnostics.py:fawa", "src/barotropic/grid.py:Grid.zonalize"]}
{"id": "C111", "title": "Integrations commute with rotations of the sphere and reflection in the equator", "statement": "If initial state, background PV and forcing are rotated by a gridpoint about the axis (or reflected in the equator, PV and northward wind with the opposite sign), run returns the rotated (reflected) states, at the same times and with the same errors; zonally symmetric states stay zonally symmetric and states symmetric about the equator stay so under a model with that symmetry.", "quantifier": "all models, states, forcings, time steps and lengths of integration", "why_tests_cant": "all states and arbitrarily long integrations", "anchors": ["src/barotropic/model.py:BarotropicModel.run", "src/barotropic/model.py:BarotropicModel.pv_tendency_spectral", "src/barotropic/state.py:State.pv_flux_spectral"]}
{"id": "C112", "title": "Zonally symmetric flow is steady", "statement": "Without forcing and with no diffusion, or diffusion towards the initial PV, run keeps the PV of a zonally symmetric state in all returned states; such states have no northward wind and no divergence of the PV flux, and all states of init.py are zonally symmetric.", "quantifier": "all zonally symmetric states, in particular all of init.py, and integrations of any length", "why_tests_cant": "all profiles and arbitrarily long integrations", "anchors": ["src/barotropic/model.py:BarotropicModel.run", "src/barotropic/init.py:zonally_symmetric", "src/barotropic/init.py:gaussian_jet", "src/barotropic/state.py:State.pv_flux_spectral"]}
{"id": "C113", "title": "Forcing terms and forced integrations commute with rotations of the sphere and reflection in the equator", "statement": "Sums and products of functions, switches, LinearRelaxation and orographic forcing commute with rotation by any number of gridpoints, and with reflection in the equator, if reference PV and relief are rotated or reflected (and a fixed Coriolis parameter changes sign in the reflection); run with such forcing returns the rotated or reflected states. If forcing, background and initial PV repeat every n gridpoints, PV and wind of all states do, for ZonalSineMountains of wavenumber k whenever k*n is a multiple of nlon; mountains on the equator are their own reflection.", "quantifier": "all forcing expressions of these terms, states, models and integrations", "why_tests_cant": "all expressions and arbitrarily long integrations", "anchors": ["src/barotropic/rhs.py:Orography.__call__", "src/barotropic/rhs.py:LinearRelaxation.__call__", "src/barotropic/rhs.py:ZonalSineMountains", "src/barotropic/rhs.py:GaussianMountain", "src/barotropic/model.py:BarotropicModel.run"]}
{"id": "C114", "title": "Wave activity and zonalization treat both hemispheres alike", "statement": "For the PV field reflected in the equator with opposite sign, contours with the opposite levels (the automatic ones are) have opposite equivalent latitudes, zonalize returns the reversed profile with opposite sign and falwa and fawa the reversed wave activity with the same sign, if the resolution divides the circle, no contour has an area of its own (no neighbouring points on a meridian, or for boxcount no points at all, with exactly the value of the contour) and, for interpolation, the contours have different latitudes.", "quantifier": "all fields, levels, quadratures and grids under these conditions", "why_tests_cant": "sign conventions, ties and orderings over all fields", "anchors": ["src/barotropic/grid.py:Grid.zonalize", "src/barotropic/grid.py:Grid.quad_meridional", "src/barotropic/grid.py:Grid.equivalent_latitude", "src/barotropic/diagnostics.py:falwa", "src/barotropic/diagnostics.py:fawa", "src/barotropic/state.py:State.fawa"]}
{"id": "C115", "title": "Contour levels and wind vectors of the figures", "statement": "Whenever a figure is drawn, its filled contours of PV, meridional wind and PV deviation have equally spaced levels symmetric about 0 up to the largest magnitude or the given limit (-1 and 1 for 0), 11 on the globe and 17 on a hemisphere for PV and 10 for the others; streamfunction lines are drawn unless it is constant, at 10 (14) levels from its minimum to its maximum; PV lines at the inner 8 (12) of 10 (14) levels; envelope and filtered FALWA share 6 levels from 0 to the larger of both maxima; wind vectors are those of every step-th row and column from step/2, where step is the number of latitudes divided by 13 (21), at least 1.", "quantifier": "all states, hemispheres, centers and limits", "why_tests_cant": "levels are not checked by tests of the figures", "anchors": ["src/barotropic/plot.py:summary", "src/barotropic/plot.py:wave_activity", "src/barotropic/plot.py:rwp_diagnostics", "src/barotropic/plot.py:symmetric_levels", "src/barotropic/plot.py:reduce_vectors"]}
{"id": "C116", "title": "Relaxation reaches its reference when rate times step is below 1/3 and not above", "statement": "With LinearRelaxation the filtered leapfrog integration of a zonal flow comes and stays arbitrarily close to a zonal reference in every spectral coefficient if 0 < rate*dt < 1/3, without diffusion or with diffusion towards the reference; the global mean PV of any flow does so with any diffusion of order at least 1; final states of run with late enough tend are as close as desired. Without diffusion and with rate*dt at least 1/3 (other than 3/2, where the time filter hides the growing mode and the returned states do converge) every coefficient that differs initially ends up and stays farther away than some positive distance.", "quantifier": "all zonal flows and references (all flows for the mean), rates, steps, truncations, transforms with the stated symmetries", "why_tests_cant": "limits of unboundedly long integrations and a sharp stability bound", "anchors": ["src/barotropic/rhs.py:LinearRelaxation.__call__", "src/barotropic/model.py:BarotropicModel.leapfrog", "src/barotropic/model.py:BarotropicModel.run"]}
{"id": "C117", "title": "Diffusion alone brings zonal flow to the background or to uniform PV", "statement": "Without forcing, with a positive diffusion coefficient and any time step, every spectral coefficient but the mean of the PV of a zonal flow comes and stays arbitrarily close to that of a zonal diffusion_bg; without diffusion_bg and with diffusion_order at least 1 the PV comes and stays arbitrarily close to the constant with the same global mean.", "quantifier": "all zonal flows and backgrounds, coefficients, orders, steps, truncations, transforms with the stated properties", "why_tests_cant": "limits of unboundedly long integrations for every step size", "anchors": ["src/barotropic/model.py:BarotropicModel._apply_diffusion", "src/barotropic/model.py:BarotropicModel.leapfrog", "src/barotropic/grid.py:Grid.solve_diffusion_spectral"]}
{"id": "C118", "title": "Stationary wavenumber and waveguides do not depend on the first longitude and treat both hemispheres alike", "statement": "Renumbering the longitudes of wind and PV does not change the stationary wavenumber. Reflecting the wind in the equator, and the PV with the opposite sign, reverses its profile from north to south, for given or missing PV and all kinds of output, with the same errors. The waveguides extracted from a reversed profile are the reflected waveguides. The same holds for the properties of a State.", "quantifier": "all grids, fields and profiles, orders, thresholds and kinds; all profiles with infinite values; transforms with the stated properties", "why_tests_cant": "symmetry over all profiles, including infinite wavenumbers", "anchors": ["src/barotropic/diagnostics.py:stationary_wavenumber", "src/barotropic/diagnostics.py:extract_ks_waveguides", "src/barotropic/state.py:State.stationary_wavenumber", "src/barotropic/state.py:State.extract_ks_waveguides", "src/barotropic/grid.py:Grid.derivative_meridional"]}
{"id": "C119", "title": "The mean over a region is the area-weighted average over its mask", "statement": "GridRegion.mean(field) is the average, weighted by gridpoint area, of the values at the gridpoints where GridRegion.mask is True. A field from which the region has been extracted already has the same mean unless it has the shape of the grid; other shapes raise AssertionError; the mean over an empty region is not a number.", "quantifier": "all grids, regions and fields", "why_tests_cant": "agreement of two public attributes over all selections, including those that wrap across 0E", "anchors": ["src/barotropic/grid.py:GridRegion.mean", "src/barotropic/grid.py:GridRegion.mask", "src/barotropic/grid.py:Grid.mean"]}
{"id": "C120", "title": "Diagnostics give the same for a State and for its fields on its grid", "statement": "Finite-amplitude wave activity of a State is that of its PV on its grid, and the State's stationary wavenumber is that of its zonal wind on its grid. An array without a grid raises AttributeError.", "quantifier": "all States, transforms, levels, quadratures, orders and thresholds", "why_tests_cant": "two entry points over all inputs; the difference between them depends on the grid and the PV", "anchors": ["src/barotropic/diagnostics.py:_get_grid_vars", "src/barotropic/diagnostics.py:falwa", "src/barotropic/diagnostics.py:fawa", "src/barotropic/diagnostics.py:stationary_wavenumber"]}
{"id": "C121", "title": "Zonal wave diagnostics do not depend on the first longitude or on the direction of longitude", "statement": "If the longitudes of a field are renumbered from another longitude, eastward or westward, the dominant wavenumber stays the same, and the field restricted to a range of wavenumbers, its envelope and the field filtered by wavenumber are renumbered likewise. The phase-filtered wave activity and the envelope of the northward wind of a rotated State are those of the State, rotated.", "quantifier": "all fields, numbers of longitudes, wavenumber ranges, profiles and fields of wavenumbers, and States", "why_tests_cant": "tests look at single fields with the default first longitude; the claim is over all renumberings", "anchors": ["src/barotropic/diagnostics.py:_restrict_fourier_zonal", "src/barotropic/diagnostics.py:dominant_wavenumber_fourier", "src/barotropic/diagnostics.py:envelope_hilbert", "src/barotropic/diagnostics.py:filter_by_wavenumber", "src/barotropic/state.py:State.falwa_filtered", "src/barotropic/state.py:State.v_envelope_hilbert"]}
{"id": "C122", "title": "Accuracy of the stationary wavenumber", "statement": "If the PV profile samples a smooth function Q of latitude, the squared stationary wavenumber at every latitude between the poles whose wind exceeds the threshold differs from r cos^2(phi) Q'(phi)/u by at most r cos^2(phi)/|u| times the error of the finite difference (second or fourth order in the spacing, explicit constants). For solid-body rotation with speed U at the equator it is 2 cos^2(phi) (1 + Omega r/U) up to that error, so westerlies have a real and easterlies slower than the planet an imaginary wavenumber wherever the cosine of the latitude exceeds the error.", "quantifier": "all grids, smooth PV profiles, winds, thresholds, orders and latitudes", "why_tests_cant": "tests compare single profiles with stored numbers; the bound is over all smooth profiles and resolutions", "anchors": ["src/barotropic/diagnostics.py:stationary_wavenumber", "src/barotropic/grid.py:Grid.derivative_meridional"]}
{"id": "C123", "title": "Wavenumber ranges of any numbers", "statement": "For any two numbers kmin and kmax, restricting a field to a wavenumber range, its envelope and its dominant wavenumber take into account exactly the wavenumbers k with kmin <= k <= kmax. If the range contains none, the restriction is 0 and the dominant wavenumber raises a ValueError. Ranges that are not pairs are rejected with an AssertionError.", "quantifier": "all fields and all pairs of numbers, including negative ones and ones that are not integers", "why_tests_cant": "tests use the default ranges", "anchors": ["src/barotropic/diagnostics.py:_restrict_fourier_zonal", "src/barotropic/diagnostics.py:dominant_wavenumber_fourier", "src/barotropic/diagnostics.py:envelope_hilbert"]}
{"id": "C124", "title": "Zonal Fourier restriction of fields with an odd number of longitudes", "statement": "For an odd number n of longitudes the restricted field has n-1 longitudes and the same Fourier sums over the longitudes in the range of wavenumbers (except that the sine part of the largest wavenumber is lost), 0 outside of it. Hence the zonal mean and every wave in the range below the largest wavenumber come back multiplied by n/(n-1), of the wave with the largest wavenumber half of the cosine part times that factor, and the envelope of a wave is its amplitude times n/(n-1).", "quantifier": "all fields, odd numbers of longitudes from 3, wavenumber ranges, amplitudes and phases", "why_tests_cant": "tests use grids with even numbers of longitudes", "anchors": ["src/barotropic/diagnostics.py:_restrict_fourier_zonal", "src/barotropic/diagnostics.py:envelope_hilbert"]}
{"id": "C125", "title": "Meridional derivative and stationary wavenumber for every resolution", "statement": "For every resolution the meridional derivative is that of the function divided by eta = (nlat-1)*resolution/180: eta times the derivative is exact on polynomials up to the order and within the error bound of the order (in terms of the actual spacing of latitudes) for smooth functions, and the same holds for the squared stationary wavenumber. eta lies above 1-resolution/180 and is at most 1, and it is 1 if and only if 180/resolution is an integer, so the relative error that is due to the nominal spacing is less than resolution/(180-resolution).", "quantifier": "all grids, orders, polynomials, smooth functions, profiles and fields", "why_tests_cant": "tests use resolutions which divide 180", "anchors": ["src/barotropic/grid.py:Grid.derivative_meridional", "src/barotropic/grid.py:Grid.__init__", "src/barotropic/diagnostics.py:stationary_wavenumber"]}
{"id": "C126", "title": "Grid coordinates in double precision", "statement": "With the rounding of IEEE double precision the latitudes of a grid go from exactly 90 to exactly -90 degrees, are strictly decreasing and differ from the equidistant latitudes by at most 2^-44 degrees; the longitudes start at exactly 0, are strictly increasing, below 360, and differ from the equidistant ones by at most 2^-43 degrees. If the spacing is a multiple of a power of two (such as the default 2.5), all coordinates are exact. In general, however, they are not symmetric about the equator and the middle latitude need not be 0.", "quantifier": "all numbers of latitudes and longitudes up to 2^40", "why_tests_cant": "tests compare a few grids approximately", "anchors": ["src/barotropic/grid.py:Grid.__init__"]}
{"id": "C127", "title": "Selection of regions in double precision", "statement": "If the spacing is a multiple of a power of two, the selection of latitudes and longitudes in double precision returns exactly the gridpoints between the given bounds, bounds included, in the same order as with exact arithmetic, and the equator belongs to both hemispheres. For every spacing, all gridpoints inside the bounds by more than 2^-44 (longitudes: 2^-43) degrees are selected and none that is outside by more; the poles and the 0-meridian are selected exactly when asked for. In general, however, gridpoints on the bounds can be missed: latitude 62.4 by the selection up to 62.4 with resolution 1.2, the equator by one of the hemispheres with 79 or 339 latitudes.", "quantifier": "all numbers of latitudes and longitudes up to 2^40, all pairs of bounds that are doubles or None", "why_tests_cant": "tests select regions of a few grids", "anchors": ["src/barotropic/grid.py:GridRegionIndexer._get_lat_indices", "src/barotropic/grid.py:GridRegionIndexer._get_lon_indices", "src/barotropic/grid.py:Grid.__init__"]}
{"id": "C128", "title": "Power of zonal waves: Parseval, projection, scaling", "statement": "Along every latitude with an even number of longitudes the sum of squares is the weighted sum of the powers of all wavenumbers, and that of the restricted field is the sum over the wavenumbers in the range. The restricted field is the orthogonal projection onto the waves in the range: the sums of squares of it and of the rest add up to that of the field, and of all fields made of such waves it is the closest. If the range excludes the zonal mean and the smallest resolved wave, the squares of the envelope sum up to twice the squares of the waves. Waves and envelope are proportional to the field, and the dominant wavenumber does not depend on the unit of the field.", "quantifier": "all fields with an even number of longitudes (dominant wavenumber: any), ranges and factors", "why_tests_cant": "tests look at single waves", "anchors": ["src/barotropic/diagnostics.py:_restrict_fourier_zonal", "src/barotropic/diagnostics.py:envelope_hilbert", "src/barotropic/diagnostics.py:dominant_wavenumber_fourier"]}
{"id": "C129", "title": "Laplacian eigenvalues in single precision", "statement": "The eigenvalues of the Laplacian, computed in double precision and cast to complex64, are off by at most the fraction 2^-23, are zero for degree 0 only, and grow strictly with the degree. The Laplacian of a coefficient followed by the inverse Laplacian, computed in single precision, gives the coefficient back up to the fraction 2^-22, but not always exactly.", "quantifier": "all radii that are doubles from 1 to 2^30, degrees up to 2^20 and coefficients that are 0 or between 2^-60 and 2^60 in magnitude", "why_tests_cant": "tests use tolerances and a few grids", "anchors": ["src/barotropic/grid.py:Grid.__init__", "src/barotropic/grid.py:Grid.laplace_spectral", "src/barotropic/grid.py:Grid.solve_poisson_spectral"]}
{"id": "C130", "title": "Diffusion in single precision: accuracy and underflow", "statement": "As long as no power of a non-zero eigenvalue underflows, the diffusion step computed in complex64 is off by at most the fraction (order + 2) 2^-22; this holds for the orders 1 and 2 on all grids. With order 4 or more, coefficients whose eigenvalue is at most 2^-38 (degree 11 on Earth) are not changed at all, and with order 5 or more no coefficient is changed where no eigenvalue exceeds 2^-32 (2.5 degree grid on Earth), whatever the coefficient and time step: not every varying part of the field is damped.", "quantifier": "all fields, coefficients and time steps with dt*coeff in the range of single precision, orders from 1 to 99", "why_tests_cant": "no test uses an order above 2; the effect of underflow depends on radius, degree and order", "anchors": ["src/barotropic/grid.py:Grid.solve_diffusion_spectral"]}
{"id": "C131", "title": "Single coordinates in double precision", "statement": "A number selects a latitude or longitude of a grid in double precision where it is within 1e-8 + 1e-5*|x| of exactly one coordinate, up to rounding; otherwise IndexError is raised. Up to 190000 steps of latitude and 99000 longitudes every double within 1e-9 of a coordinate, and in particular the grid's own value, selects that coordinate. Infinities and NaN raise IndexError. On finer grids the tolerance includes the neighbours: the poles and the last longitude cannot be selected; 360 does not select the 0-meridian.", "quantifier": "all grids up to 2^40 coordinates, all doubles up to 2^52 in magnitude, infinities and NaN", "why_tests_cant": "tests select a few values on coarse grids", "anchors": ["src/barotropic/grid.py:GridRegionIndexer._get_lat_indices", "src/barotropic/grid.py:GridRegionIndexer._get_lon_indices"]}
{"id": "C132", "title": "Rossby-Haurwitz waves in integrations", "statement": "Without forcing and diffusion, a flow made of a solid-body rotation and harmonics of one degree n keeps this form in every step. Each harmonic of order m turns with the frequency m*((2*omega + a)/(n*(n+1)) - a/2) up to an error of first order in the time step, so integrations to a fixed time converge to the exact solution when the step is shortened. Zonal harmonics do not change. Because of the Robert-Asselin filter every moving wave dies out when frequency times step is below sqrt(2/3) in magnitude; at that value waves stay bounded, beyond it they grow without bound.", "quantifier": "all grids, radii, rotation rates, degrees, solid-body rotations, wave amplitudes and phases, time steps and numbers of steps, numbers and dates", "why_tests_cant": "tests integrate one wave with one time step for a short time", "anchors": ["src/barotropic/model.py:BarotropicModel.run", "src/barotropic/model.py:BarotropicModel.euler", "src/barotropic/model.py:BarotropicModel.leapfrog", "src/barotropic/state.py:State.pv_flux_spectral"]}
{"id": "C133", "title": "Spherical harmonics on the points of a grid", "statement": "On every grid, transforms built from spherical harmonics (Rodrigues' formula) and quadrature on the latitudes of the grid have the properties that theorems about spectral methods assume: harmonics up to a degree D below half of the numbers of latitudes and longitudes are analysed and synthesised exactly; winds, vorticity, divergence, gradient and Laplacian are those of the continuous functions; rotations and reflections act on the coefficients as they should; and products are free of aliasing if 2n+D does not exceed the numbers of latitudes (n the degree of the wave). So Rossby-Haurwitz waves on fine enough grids converge without any assumption on transforms. The coefficient of highest order and degree cannot be analysed on grids with the default truncation.", "quantifier": "all grids, radii, truncations, degrees and fields", "why_tests_cant": "tests compare a few fields with a tolerance on one grid", "anchors": ["src/barotropic/grid.py:Grid.__init__", "src/barotropic/grid.py:Grid.to_spectral", "src/barotropic/grid.py:Grid.to_grid", "src/barotropic/grid.py:Grid.gradient", "src/barotropic/grid.py:Grid.vorticity_divergence", "src/barotropic/grid.py:Grid.wind"]}
{"id": "C134", "title": "Energy, enstrophy and angular momentum", "statement": "With spherical-harmonic transforms and neither forcing nor diffusion, the tendency of PV changes neither the mean kinetic energy (State.energy) nor the angular momentum of the flow, nor the mean enstrophy (State.enstrophy) if 3 times the highest degree D fits the numbers of latitudes and longitudes. The first (Euler) step adds the square of the step times the energy and enstrophy of the tendency, and so never weakens a flow. Each leapfrog step leaves the energy and the enstrophy that successive states have in common (half the means of v.v' and q*q') as they are. The angular momentum is exactly constant in all integrations. The energy itself is not: the first step strengthens every Rossby-Haurwitz wave that moves.", "quantifier": "all grids, degrees D below half of the numbers of latitudes and longitudes, resolved states, steps (of any length) and numbers of steps", "why_tests_cant": "tests integrate a few states and allow for drift", "anchors": ["src/barotropic/state.py:State.energy", "src/barotropic/state.py:State.enstrophy", "src/barotropic/state.py:State.pv_flux_spectral", "src/barotropic/model.py:BarotropicModel.euler", "src/barotropic/model.py:BarotropicModel.leapfrog", "src/barotropic/model.py:BarotropicModel._pv_tendency_spectral"]}
{"id": "C135", "title": "Fields of integers", "statement": "filter_zonal and filter_meridional of an array of integers fail as with floats and otherwise round every filtered value toward zero, so that a field of zeros and ones stays one only where the window sees nothing but ones, and means are not preserved. Meridional interpolation of integers is that of floats if the pole values are integers, and otherwise rounds them toward zero; the same holds for zonalize with an array of integers as levels, which turns every field between -1 and 1 with the level 0 into zeros.", "quantifier": "all arrays, windows, latitudes, pole values, levels and grids", "why_tests_cant": "tests filter a few fields of floats", "anchors": ["src/barotropic/grid.py:Grid.filter_zonal", "src/barotropic/grid.py:Grid.filter_meridional", "src/barotropic/grid.py:Grid.interp1d_meridional", "src/barotropic/grid.py:Grid.interpolate_meridional", "src/barotropic/grid.py:Grid.zonalize"]}
{"id": "C136", "title": "Coordinates of datasets in double precision", "statement": "In double precision, from_dataset accepts the coordinates of every grid with 2m longitudes and m+1 latitudes. The grid that it makes has either these numbers or exactly one longitude and one latitude less. The numbers are kept if the spacing is a multiple of a power of two, for all even numbers of longitudes up to 336, and for 4m longitudes if and only if for 2m; they are not kept for 338 (the coordinates of Grid(resolution=1.065)) and its multiples by powers of two. Odd numbers of longitudes up to 40001 are refused.", "quantifier": "all m from 2 to 2^39", "why_tests_cant": "tests read a few datasets with spacings that are exact in binary", "anchors": ["src/barotropic/io.py:from_dataset", "src/barotropic/grid.py:Grid.__init__"]}
{"id": "C137", "title": "Diffusion, energy, enstrophy and angular momentum", "statement": "With spherical-harmonic transforms, a step of diffusion without background never increases the mean enstrophy (State.enstrophy) and reduces it unless PV is uniform. With the planetary vorticity as diffusion_bg it never increases the mean kinetic energy (State.energy) and divides the angular momentum by 1 + dt*coeff*(2/r^2)^order, so that in every integration without forcing the angular momentum stays between zero and its initial value. Without background it is the absolute angular momentum that is divided by this number, so an atmosphere at rest is set into motion against the rotation of the planet. An Euler step with diffusion adds no more energy and enstrophy than the square of the step times those of the tendency.", "quantifier": "all grids, resolved states, orders, steps, non-negative coefficients and numbers of steps", "why_tests_cant": "tests run a few integrations and do not look at the budgets", "anchors": ["src/barotropic/model.py:BarotropicModel._apply_diffusion", "src/barotropic/grid.py:Grid.solve_diffusion_spectral", "src/barotropic/model.py:BarotropicModel.euler", "src/barotropic/state.py:State.energy", "src/barotropic/state.py:State.enstrophy"]}
{"id": "C138", "title": "Arrays in memory: nothing that exists is modified", "statement": "With arrays as mutable objects in memory: reading any attribute of a State, evaluating any forcing expression and running any integration change no array that existed before and give the values of the computation without memory, although the streamfunction and the tendency are built by assignments into arrays. pv, avo, pv_spectral, u, v, streamfunction, pv_zonalized and falwa return the same array at every access, which the State keeps; all other attributes return a new array every time. In any sequence of constructing States, reading attributes, integrating and writing into arrays, a user who writes only into arrays they made (and did not pass as pv_spectral) or that attributes do not keep never changes a State or the value of an attribute. State(pv=...) does not keep the array of the user, but State(pv_spectral=...) does, and values written into state.pv become the gridded PV and enter enstrophy and vorticity while the spectral PV stays.", "quantifier": "all memories, States, attributes, forcing expressions, models, integrations and sequences of actions", "why_tests_cant": "aliasing shows only in particular sequences of reads and writes", "anchors": ["src/barotropic/state.py:State.__init__", "src/barotropic/state.py:State.pv", "src/barotropic/state.py:State.pv_spectral", "src/barotropic/state.py:State.u", "src/barotropic/state.py:State.streamfunction", "src/barotropic/grid.py:Grid.solve_poisson_spectral", "src/barotropic/model.py:BarotropicModel._pv_tendency_spectral", "src/barotropic/model.py:BarotropicModel.run", "src/barotropic/rhs.py:RHS"]}
{"id": "C139", "title": "Fields of machine integers", "statement": "For fields of machine integers, differences and products are computed modulo a power of two. Grid.derivative_meridional of signed integers is that of the same numbers as floats exactly where the numerator of the finite difference fits into the type, in particular everywhere if all values are below 1/128 (order 4) or 1/8 (order 2) of the largest integer; the order-2 derivative of a profile of unsigned integers is never positive and correct only where the profile does not decrease. Grid.quad with sptrapz is that of floats if the differences between neighbouring latitudes fit, and can be wrong otherwise (unsigned integers that decrease by one), while boxcounting is always that of floats. Grid.zonalize with a number of levels is that of floats for unsigned integers and for signed integers whose range of values fits; otherwise the levels are in descending order and crowd around the middle of the range. With integer levels it is that of floats in half of the range of a signed type, but for unsigned fields it assigns every level to the South Pole.", "quantifier": "all grids, integer types, fields, orders, levels and methods", "why_tests_cant": "tests use floats", "anchors": ["src/barotropic/grid.py:Grid.derivative_meridional", "src/barotropic/grid.py:Grid.quad_meridional", "src/barotropic/grid.py:Grid.quad", "src/barotropic/grid.py:Grid.zonalize"]}
{"id": "C140", "title": "Functions that write into parts of arrays", "statement": "Every function of the package which assigns to items, slices or masked parts of an array of numbers (Grid.derivative_meridional, Grid.solve_poisson_spectral, Grid.gridpoint_area, Grid.quad_meridional with sptrapz, Grid.equivalent_latitude, GridRegion.mask, GridRegion.lon_mono, the zonal Fourier filter, and stationary_wavenumber) gives, executed statement by statement on a memory, the values which the closed formulas of the model without memory give, or the same exception. The writes go to cells that did not exist before the call: all arguments and all arrays of the Grid (latitudes, longitudes, also where slices of them are used) keep their values, even if arguments share cells, and the results are arrays of new, distinct cells. stationary_wavenumber overwrites the array of the squared wavenumber which it made, and nothing else.", "quantifier": "all memories, arrays in it (overlapping or not), grids, orders, regions, bounds of the filter and winds", "why_tests_cant": "tests compare results for some inputs and do not look at the arguments afterwards", "anchors": ["src/barotropic/grid.py:Grid.derivative_meridional", "src/barotropic/grid.py:Grid.solve_poisson_spectral", "src/barotropic/grid.py:Grid.gridpoint_area", "src/barotropic/grid.py:Grid.quad_meridional", "src/barotropic/grid.py:Grid.equivalent_latitude", "src/barotropic/grid.py:GridRegion.mask", "src/barotropic/grid.py:GridRegion.lon_mono", "src/barotropic/diagnostics.py:_restrict_fourier_zonal", "src/barotropic/diagnostics.py:stationary_wavenumber"]}
{"id": "C141", "title": "Construction of mountains", "statement": "GaussianMountain and ZonalSineMountains accept exactly: keyword arguments among their own and those of Orography that are not taken (lon, lat and orography are), a wind made of one of the three names and a factor, a center that can be split in two, and a stdev which is a number or whose first two entries are numbers (stdev_lat: a number). Otherwise they raise: TypeError for names; then ValueError for a wind of wrong size or unknown name and TypeError for one that cannot be iterated over; then the same for the center; then IndexError for a stdev that runs out of entries and TypeError for one with anything else than numbers. With numbers as arguments, the relief is the documented one with the given or default parameters (a single stdev counts for both directions, entries after the second are ignored, signs do not matter) and the forcing is that of an Orography with this relief, scale height, wind and Coriolis parameter.", "quantifier": "all sets of keyword arguments made of None, numbers, strings and sequences", "why_tests_cant": "tests construct mountains with a few valid arguments", "anchors": ["src/barotropic/rhs.py:GaussianMountain.__init__", "src/barotropic/rhs.py:GaussianMountain.orography", "src/barotropic/rhs.py:ZonalSineMountains.__init__", "src/barotropic/rhs.py:ZonalSineMountains.orography", "src/barotropic/rhs.py:Orography.__init__"]}
{"id": "C142", "title": "Superposition of reliefs", "statement": "With exact transforms the forcing is linear in the relief: if the heights of one relief are, at all points of the grid, a linear combination of those of two others plus a constant, its forcing is that combination of their forcings, and adding two Orography terms is the same as one term with the added relief. Interpolation to the grid preserves such combinations, so raising a gridded relief as a whole changes nothing. Multiplying heights and scale height by the same number changes nothing.", "quantifier": "all reliefs of the three classes, grids, winds, states and coefficients", "why_tests_cant": "tests evaluate single mountains", "anchors": ["src/barotropic/rhs.py:Orography.__call__", "src/barotropic/rhs.py:Orography.orography", "src/barotropic/rhs.py:RHS.__add__"]}
{"id": "C143", "title": "Orographic forcing and the global mean of PV", "statement": "Advection and diffusion do not change the global mean of PV: an Euler step changes it by the time step times the global mean of the forcing. Orographic forcing does not change it either: flow over mountains squeezes columns on one side and stretches them on the other, so the global mean of PV is the same in all states of an integration. (True for the winds zon and sbr, where the forcing even averages to zero along every circle of latitude, and for the actual wind with a constant fcor_ref; false for the default, the actual wind with the Coriolis parameter of the grid.)", "quantifier": "all grids, resolved states, reliefs, scale heights, wind factors, diffusion parameters, time steps and numbers of steps", "why_tests_cant": "tests compare the forcing at few points and do not average it; the drift of a mean is small in short test integrations", "anchors": ["src/barotropic/rhs.py:Orography.__call__", "src/barotropic/model.py:BarotropicModel._pv_tendency_spectral", "src/barotropic/model.py:BarotropicModel.leapfrog"]}
{"id": "C144", "title": "Torques and the angular momentum of the flow", "statement": "Without diffusion, an Euler step changes the angular momentum of the flow about the axis by the time step times the torque of the forcing, the global mean of r^2 sin(lat) times the forcing: advection exerts none. Mountains exert none either, so the angular momentum is the same in all states of an integration with orographic forcing. (True for the winds zon and sbr; false for the actual wind, even with a constant fcor_ref, where the global mean of PV is conserved.)", "quantifier": "all grids, resolved states, reliefs, scale heights, wind factors, Coriolis parameters, time steps and numbers of steps", "why_tests_cant": "the torque is a global mean of products with a weight, which no test computes; the drift is small in short test integrations", "anchors": ["src/barotropic/rhs.py:Orography.__call__", "src/barotropic/model.py:BarotropicModel._pv_tendency_spectral", "src/barotropic/model.py:BarotropicModel.leapfrog"]}
{"id": "C145", "title": "Elapsed time: timedelta objects as times", "statement": "Times can be counted from the start of the integration with timedelta objects: run then gives the same states, lists of states and exceptions as with datetime objects for any origin of the calendar and any forcing that reads the time, stops at the first state at or after the end time, ends for a positive time step, and TimedOffSwitch is 1 until its end time and 0 afterwards. Elapsed times, dates and numbers do not mix (TypeError), and saving with save_every raises TypeError as with dates.", "quantifier": "all models, initial states, origins of the calendar, time steps, end times and values of save_every", "why_tests_cant": "tests use numbers as times; unbounded runs", "anchors": ["src/barotropic/model.py:BarotropicModel.run", "src/barotropic/model.py:BarotropicModel.leapfrog", "src/barotropic/rhs.py:TimedOffSwitch"]}
{"id": "C146", "title": "Relaxation and the angular momentum of the flow", "statement": "In integrations with LinearRelaxation the angular momentum of the flow approaches that of the flow with the reference PV, whatever the initial flow and however it is advected, if the rate times the time step is below 1/3 (with or without diffusion towards the reference); without diffusion it stays away from it from 1/3 on, except for 3/2, where the filter of the leapfrog steps removes what grows.", "quantifier": "all grids, resolved initial states, references, rates, time steps and numbers of steps; times are numbers, dates or timedelta objects", "why_tests_cant": "a limit over infinitely many steps of a nonlinear integration", "anchors": ["src/barotropic/rhs.py:LinearRelaxation", "src/barotropic/model.py:BarotropicModel.leapfrog", "src/barotropic/model.py:BarotropicModel._pv_tendency_spectral"]}
{"id": "C147", "title": "Integrations with a forcing that is switched off", "statement": "An integration with the product of a forcing term and a TimedOffSwitch, in either order, is step by step the one with the term alone as long as no state is later than the end time of the switch; from the first step whose newer state is later than the end time on, all steps are those of the model without forcing.", "quantifier": "all terms that give fields, end times, initial states, non-negative time steps and numbers of steps; times are numbers, dates or timedelta objects", "why_tests_cant": "unbounded runs; tests evaluate the switch at few times and not in integrations", "anchors": ["src/barotropic/rhs.py:TimedOffSwitch", "src/barotropic/rhs.py:_RHSProduct", "src/barotropic/model.py:BarotropicModel.leapfrog"]}

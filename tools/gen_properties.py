#!/usr/bin/env python3
"""Regenerates /verif/properties.jsonl (single source for the property texts)."""
import json, os
P = []
def p(id, title, statement, quantifier, why, anchors):
    P.append(dict(id=id, title=title, statement=statement, quantifier=quantifier,
                  why_tests_cant=why, anchors=anchors))
S="src/barotropic/"
G,ST,M,IO,RH,IN,DI,PL,FO=[S+x+".py" for x in "grid state model io rhs init diagnostics plot formatting".split()]

# ---- Grid geometry -------------------------------------------------------
p("C01","Grid coordinates are a uniform pole-to-pole, periodic lon-lat grid",
  "For every accepted resolution, Grid.lat has nlat entries, starts at exactly +90, ends at exactly -90 and is strictly decreasing with one uniform spacing; Grid.lon has nlon entries, starts at 0, is strictly increasing with one uniform spacing, stays below 360 and one more step lands exactly on 360.",
  "every real resolution accepted by Grid(...)","infinitely many resolutions; tests sample five",[f"{G}:Grid.__init__"])
p("C02","Nominal spacing dlon/dlat agrees with the coordinate spacing",
  "Grid.dlon and Grid.dlat (and dlam, dphi) equal the actual spacing of Grid.lon and Grid.lat (lam, phi).",
  "every accepted resolution","only resolutions dividing 180 are ever tested; the claim is false for others",[f"{G}:Grid.__init__"])
p("C03","Grid(resolution=180/n) has n+1 latitudes and 2n longitudes",
  "Asking for n latitude intervals through resolution=180/n gives nlat == n+1 and nlon == 2n, in exact arithmetic and in the IEEE double arithmetic Python uses.",
  "every n >= 2","an off-by-one from float truncation shows up only for isolated n",[f"{G}:Grid.__init__"])
p("C04","Grid equality and hashing are consistent",
  "Grid.__eq__ is an equivalence relation and grids that compare equal have equal hashes (they are used as cache keys and to guard StateList).",
  "all pairs and triples of grids","a universally quantified relation over real parameters",[f"{G}:Grid.__eq__",f"{G}:Grid.__hash__"])
p("C05","Planetary geometry helpers are consistent",
  "coriolis is odd about the equator, strictly increasing with latitude for omega > 0 and equals fcor on the grid; circumference is positive between the poles, zero at the poles, and the area of the polar cap north of a latitude is the integral of circumference along the meridian.",
  "all latitudes in [-90, 90], all planets","continuum of latitudes",[f"{G}:Grid.coriolis",f"{G}:Grid.circumference",f"{G}:Grid.equivalent_latitude"])
# ---- Area and means ------------------------------------------------------
p("C06","Gridpoint areas are positive, symmetric and tile the sphere",
  "Every entry of Grid.gridpoint_area is positive, the profile is symmetric about the equator, and the areas of all gridpoints sum to 4*pi*r^2 for every resolution.",
  "every accepted resolution and radius","telescoping identity over arbitrary nlat; false for non-dividing resolutions",[f"{G}:Grid.gridpoint_area"])
p("C07","Grid.mean is a genuine area-weighted average",
  "Grid.mean (no axis, meridional, zonal; global or in a non-empty region) of a constant is that constant, is linear, lies between the minimum and the maximum of the averaged values, and the global mean equals the area-weighted mean of the zonal means.",
  "all fields, all grids, all non-empty regions, all axes","quantifies over all fields",[f"{G}:Grid.mean",f"{G}:GridRegion.mean"])
p("C08","Axis argument of Grid.mean",
  "0, -2 and 'meridional' give the same result, 1, -1 and 'zonal' give the same result, None the full mean and anything else raises ValueError; a field whose shape is neither the grid's nor the region's is rejected.",
  "all axis values, all fields","unbounded set of axis values and shapes",[f"{G}:Grid.mean"])
# ---- Quadrature ----------------------------------------------------------
p("C09","sptrapz quadrature is the exact integral of the interpolated data",
  "quad_meridional(y, z, 'sptrapz') returns for every longitude exactly the integral over latitude of r*Y(phi)*cos(phi) restricted to Z(phi) >= 0 where Y and Z are the piecewise-linear interpolants of y and z along the meridian.",
  "all fields y and z, all grids","equality of a finite formula with an integral for all real data",[f"{G}:Grid.quad_meridional"])
p("C10","Quadrature of 1 is the surface of the sphere",
  "quad(ones) == 4*pi*r^2 for both quadrature schemes, and quad(c*ones) == c*4*pi*r^2.",
  "every accepted resolution, radius, both methods","test uses five resolutions with tolerance",[f"{G}:Grid.quad",f"{G}:Grid.quad_meridional"])
p("C11","Quadrature is linear, monotone and additive over complementary domains",
  "quad_meridional is linear in y; y1 <= y2 implies quad_meridional(y1, z) <= quad_meridional(y2, z); a smaller domain gives a smaller integral of a non-negative field; splitting the sphere by the sign of a field without zeros at gridpoints splits the integral.",
  "all fields and domains","all fields",[f"{G}:Grid.quad_meridional"])
p("C12","equivalent_latitude inverts the polar-cap area",
  "For area in [0, 4*pi*r^2], the polar cap north of equivalent_latitude(area) has exactly that area; outside that range the result is clamped to +-90; the result always lies in [-90, 90] and is non-increasing in area. A number or an array is accepted.",
  "all real areas (number or array)","continuum; the documented scalar input is never tested",[f"{G}:Grid.equivalent_latitude"])
p("C13","zonalize preserves the area enclosed by every contour",
  "zonalize(field, interpolate=False) returns pairs (q, y) such that the polar cap north of y has the same area as {field >= q} measured with the chosen quadrature (scaled to the globe for sectors), and larger q never gets a smaller y.",
  "all fields, all contour level lists, sectors of any width","all fields and levels",[f"{G}:Grid.zonalize"])
p("C14","zonalize leaves a zonally symmetric monotone field in place",
  "If field depends on latitude only and strictly decreases from north to south, the equivalent latitude of every contour between its extremes is exactly the latitude at which the linearly interpolated field takes the contour value.",
  "all strictly monotone zonally symmetric fields","all profiles",[f"{G}:Grid.zonalize"])
p("C15","Automatic contour levels are strictly inside the data range and increasing",
  "With levels an integer n (or None), zonalize uses n contour values that are strictly increasing and strictly between min and max of a non-constant field, symmetric about the mid-range.",
  "all n, all non-constant fields","all n",[f"{G}:Grid.zonalize"])
p("C16","Meridional interpolation reproduces nodes and never overshoots",
  "interpolate_meridional passes through the given data at the given latitudes, returns the pole values at the poles when no data is given there, and every result lies between the minimum and maximum of data and pole values; no output is undefined.",
  "all lists of latitudes (any order) within [-90, 90] and all values","all node sets; degenerate nodes are never tested",[f"{G}:Grid.interp1d_meridional",f"{G}:Grid.interpolate_meridional"])
# ---- Derivative ----------------------------------------------------------
p("C17","Meridional derivative is exact on polynomials up to its order",
  "derivative_meridional(f, order) is linear in f and equals the exact derivative with respect to latitude at every latitude (poles included for 2D input) when f is a polynomial of degree <= order in latitude; 1D input gets 0 at both poles.",
  "all polynomials of degree <= order, all grids with uniform spacing","all coefficients and grid sizes",[f"{G}:Grid.derivative_meridional"])
p("C18","Meridional derivative has the advertised order of accuracy",
  "For smooth f, the error of derivative_meridional is bounded by a constant times dphi^order times the maximum of the (order+1)-th derivative.",
  "all sufficiently differentiable f, all grids","statement about all smooth functions",[f"{G}:Grid.derivative_meridional"])
p("C19","derivative_meridional rejects what it cannot do",
  "Orders other than 2, 4 and None raise NotImplementedError, grids with fewer latitudes than the stencil needs are refused, output shape equals input shape.",
  "all orders, all grids, all inputs","all orders and sizes",[f"{G}:Grid.derivative_meridional"])
# ---- Spectral solvers ----------------------------------------------------
p("C20","solve_poisson inverts laplace up to the global mean",
  "laplace_spectral(solve_poisson_spectral(f)) equals f in every coefficient except the global mean, which is zero; solve_poisson_spectral(laplace_spectral(f)) equals f with its mean removed; the mean of a solution is always zero.",
  "all spectral fields, all truncations and radii","all coefficient vectors of any length",[f"{G}:Grid.laplace_spectral",f"{G}:Grid.solve_poisson_spectral"])
p("C21","solve_poisson with op_add solves (Laplacian - op_add) f = rhs",
  "The returned f satisfies the documented equation (laplace - op_add) f = rhs in every coefficient.",
  "all rhs, all op_add for which the operator is invertible","all op_add; the mean coefficient violates it",[f"{G}:Grid.solve_poisson_spectral"])
p("C22","solve_diffusion is an unconditionally stable implicit Euler step",
  "The result g of solve_diffusion_spectral satisfies g + dt*coeff*(-laplace)^order g = f; for dt*coeff >= 0 no coefficient grows in magnitude, larger degrees are damped at least as much as smaller ones, and for order >= 1 the mean is unchanged; with dt*coeff = 0 the field is unchanged.",
  "all fields, steps, coefficients, orders","all step sizes: unconditional stability",[f"{G}:Grid.solve_diffusion_spectral"])
p("C23","diffusion_bg protects the background field",
  "With diffusion_bg given, diffusion leaves a field equal to the background unchanged and acts on the deviation exactly like background-free diffusion; a zero background is the same as none.",
  "all fields and backgrounds","all fields",[f"{M}:BarotropicModel._apply_diffusion"])
# ---- State ---------------------------------------------------------------
p("C24","Lazy evaluation of State fields is unobservable",
  "Whatever sequence of attribute reads is performed on a State, each read returns the value a freshly constructed State with the same PV would return; reads never change PV, grid or time.",
  "all read histories","exponentially many interleavings of lazy caches",[f"{ST}:State",f"{ST}:_cached_property"])
p("C25","State constructors are mutually consistent",
  "Building a State from the pv, the vorticity or the winds of another State yields a State with the same pv, vorticity and winds (exact transforms assumed); PV minus planetary vorticity is the relative vorticity.",
  "all states","all fields",[f"{ST}:State.from_wind",f"{ST}:State.from_vorticity",f"{ST}:State.__init__"])
p("C26","add_wind and add_vorticity add",
  "s.add_vorticity(x) has the vorticity of s plus x, and s.add_wind(x) has the wind of s plus x, whether x is given as a State or as field(s), at the time of s.",
  "all states and all second operands","all operands; the tuple branch of add_wind is untested",[f"{ST}:State.add_wind",f"{ST}:State.add_vorticity"])
p("C27","Grid.vorticity_divergence returns the two gridded fields",
  "vorticity_divergence(u, v) returns (vorticity(u, v), divergence(u, v)).",
  "all inputs","never executed by any test",[f"{G}:Grid.vorticity_divergence"])
p("C28","as_hn2016 / from_hn2016 round trip",
  "from_hn2016(grid, time, s.as_hn2016()) reproduces the PV of s; latitudes handed over start at the South Pole.",
  "all states","optional dependency, not tested; all fields",[f"{ST}:State.as_hn2016",f"{ST}:State.from_hn2016"])
p("C29","Enstrophy and energy are non-negative and decompose",
  "energy, enstrophy, eddy_enstrophy are non-negative everywhere; eddy_enstrophy vanishes exactly for zonally symmetric PV; the zonal mean of enstrophy is the enstrophy of the zonal mean plus the zonal mean of eddy_enstrophy.",
  "all states","all fields",[f"{ST}:State.enstrophy",f"{ST}:State.eddy_enstrophy",f"{ST}:State.energy"])
# ---- Time integration ----------------------------------------------------
p("C30","run stops at the first step that reaches tend",
  "With dt > 0 and tend >= initial time, run returns a state whose time is init.time + N*dt for the smallest N with that time >= tend; the returned state is N leapfrog steps from the initial state; for tend < init.time the initial state is returned untouched.",
  "all initial times, dt > 0, tend; any number of steps; numbers or datetime/timedelta","unbounded number of steps",[f"{M}:BarotropicModel.run"])
p("C31","run terminates",
  "run terminates for every dt > 0 (and does not for dt <= 0 with tend in the future).",
  "all dt, all times, exact and double-precision time","termination is not testable",[f"{M}:BarotropicModel.run"])
p("C32","save_every returns one state per elapsed save interval",
  "run returns the initial state first and then, for dt <= save_every, for every k >= 1 the first state at least k*save_every after the start of the integration; nothing else is saved; save_every = 0 saves only the initial state.",
  "all start times, dt, tend, save_every","all histories; non-zero start times are untested",[f"{M}:BarotropicModel.run"])
p("C33","A longer integration extends a shorter one",
  "Running the same model from the same state with the same dt and save_every to a later tend returns a list of states that starts with the list of the shorter run, and passes through the final state of the shorter run.",
  "all pairs tend1 <= tend2","relation between two unbounded runs",[f"{M}:BarotropicModel.run"])
p("C34","Global mean PV is conserved without forcing",
  "Without forcing, every state visited and saved by run (Euler start, leapfrog, Robert-Asselin filter, diffusion of order >= 1) has the same global-mean PV coefficient as the initial state.",
  "all initial states, all run lengths","invariant over unbounded runs",[f"{M}:BarotropicModel.run",f"{M}:BarotropicModel.leapfrog",f"{M}:BarotropicModel.euler"])
p("C35","A motionless atmosphere stays motionless",
  "Without forcing, run started from init.motionless produces only motionless states.",
  "all run lengths, all diffusion settings","unbounded runs; false unless diffusion spares planetary vorticity",[f"{IN}:motionless",f"{M}:BarotropicModel.run"])
p("C36","leapfrog step structure",
  "leapfrog(old, now) returns a filtered state at now.time and a new state at now.time + (now.time - old.time); filter_parameter 0 leaves the current state unchanged; the filter does not change states on a straight line in time, and without forcing, flow and diffusion damps the computational mode by (1 - 2*filter_parameter) per step.",
  "all states, all filter parameters","all states",[f"{M}:BarotropicModel.leapfrog"])
p("C37","run always returns a (State, StateList) pair",
  "The second result of run is a StateList containing at least the initial state.",
  "all arguments","the early-return branch is untested",[f"{M}:BarotropicModel.run"])
p("C38","Time units: number of seconds and timedelta are interchangeable",
  "Integrating with datetime time and timedelta dt produces the same PV fields as integrating with the equivalent numbers of seconds; mixing the two raises TypeError.",
  "all runs","unbounded runs",[f"{M}:_to_seconds",f"{M}:BarotropicModel.run"])
# ---- RHS -----------------------------------------------------------------
p("C39","Forcing terms compose pointwise",
  "(a + b)(s) == a(s) + b(s) and (a * b)(s) == a(s) * b(s) for arbitrarily nested expressions of forcing terms; numbers can be added and multiplied as well.",
  "all expression trees","all expression trees; numeric operands untested",[f"{RH}:RHS",f"{RH}:_RHSSum",f"{RH}:_RHSProduct"])
p("C40","TimedOffSwitch is on up to and including tend and off forever after",
  "For a sequence of states ordered in time the switch yields 1 up to tend inclusive, then 0 for all later states; multiplying a term by it equals the term or zero.",
  "all times, all terms","all times",[f"{RH}:TimedOffSwitch"])
p("C41","LinearRelaxation relaxes towards the reference",
  "The forcing vanishes exactly where PV equals the reference (rate != 0), and an Euler step of size dt with 0 <= rate*dt <= 1 shrinks the deviation by the factor (1 - rate*dt) without overshoot.",
  "all fields, rates, steps","all fields",[f"{RH}:LinearRelaxation"])
p("C42","Orography interpolation is exact on nodes and never overshoots",
  "Orography.orography on a grid whose coordinates coincide with the given lon/lat returns the given field; all interpolated heights lie between the minimum and maximum of the given field.",
  "all orography fields, all grids","all fields",[f"{RH}:Orography.orography"])
p("C43","Orographic forcing is -f/H u.grad(h) for every wind option",
  "The forcing is linear in the wind factor, zero for flat orography, independent of the state for 'sbr' wind, independent of meridional wind for 'zon', uses the given constant Coriolis parameter if fcor_ref is given; unknown wind kinds raise ValueError at construction.",
  "all states, all orographies","all states",[f"{RH}:Orography.__call__",f"{RH}:Orography.__init__"])
p("C44","Caching of the orography gradient is unobservable",
  "The gradient used for a (term, grid) pair equals the freshly computed one after any sequence of evaluations of any number of orographic terms on any number of grids (cache of 8 entries with eviction).",
  "all call histories","unbounded histories with eviction",[f"{RH}:Orography._orography_gradient"])
p("C45","GaussianMountain is a 360-degree periodic mountain",
  "The height lies in (0, height], reaches height at the centre, and depends on longitude only through the angular distance to the centre.",
  "all centres and widths","continuum of centres; mountains near 0E untested",[f"{RH}:GaussianMountain.orography"])
p("C46","ZonalSineMountains is periodic and bounded",
  "The height lies in [0, height], is periodic with 360/wavenumber degrees in longitude and continuous across 0E for integer wavenumber.",
  "all wavenumbers","all wavenumbers",[f"{RH}:ZonalSineMountains.orography"])
# ---- Region --------------------------------------------------------------
p("C47","Latitude selection is inclusive and order-insensitive",
  "grid.region[:, a:b] selects exactly the grid latitudes between min(a,b) and max(a,b) inclusive, from north to south, each once; open ends, 'N' and 'S' behave accordingly.",
  "all grids and bounds","all real bounds",[f"{G}:GridRegionIndexer._get_lat_indices"])
p("C48","Longitude selection is inclusive and wraps eastward across 0E",
  "grid.region[a:b, :] selects exactly the grid longitudes in [a, b], or for b < a those in [a, 360) followed by those in [0, b], each once and in eastward order.",
  "all grids and bounds","all real bounds including wrap-around",[f"{G}:GridRegionIndexer._get_lon_indices"])
p("C49","lon_mono is strictly increasing and equal to lon modulo 360",
  "For every region made with grid.region, lon_mono never fails, is strictly increasing, spans less than 360 degrees, and differs from lon by 0 or 360 in each entry.",
  "all selections","all selections",[f"{G}:GridRegion.lon_mono"])
p("C50","extract, mask, shape, lat and lon of a region agree",
  "extract(field)[i,j] is the field value at (lat[i], lon[j]); mask is True exactly on selected gridpoints; the number of True entries equals the product of shape; profiles are routed to the right axis; multi-field extraction preserves order; wrong shapes raise ValueError.",
  "all regions and fields","all selections and fields",[f"{G}:GridRegion"])
p("C51","Single-value and malformed selections",
  "A number selects exactly one grid coordinate or raises IndexError; strings, steps, non-numeric bounds and more than two dimensions raise IndexError; repr of any region succeeds.",
  "all selections","unbounded set of malformed selections; empty-region repr untested",[f"{G}:GridRegionIndexer.__getitem__",f"{FO}:grid_region_repr"])
# ---- StateList -----------------------------------------------------------
p("C52","StateList accepts exactly sequences of States on one grid",
  "The constructor raises TypeError for non-States and AssertionError for a State on a different grid; an accepted list contains States with pairwise equal grids in input order.",
  "all sequences","all sequences; non-transitivity of tolerance-based grid equality",[f"{ST}:StateList.__init__"])
p("C53","StateList is a sequence",
  "len, iteration, indexing and + agree with the list of states: + concatenates, is associative with the empty StateList as identity, and every operation that selects several states returns a StateList.",
  "all lists","all lists",[f"{ST}:StateList.__add__",f"{ST}:StateList.__getitem__"])
p("C54","Attribute broadcasting equals element-wise access",
  "states.attr[i] equals states[i].attr for every attribute, states.method(args)[i] equals states[i].method(args); the container is a StateList for States, an array for numbers/arrays and a list otherwise, for lists of every length including zero.",
  "all lists, attributes and functions","all lists incl. empty and mixed",[f"{ST}:StateList.__getattr__",f"{ST}:_convert_sequence",f"{ST}:StateList.map"])
p("C55","StateList.run equals running each state separately",
  "states.run(model, ...) returns exactly the final states and the saved lists of model.run applied to each state, in order.",
  "all lists","all lists",[f"{ST}:StateList.run"])
# ---- IO ------------------------------------------------------------------
p("C56","from_dataset builds States on a grid with the dataset's coordinates",
  "If from_dataset accepts the coordinates of a dataset, the grid of the returned states has the same number of latitudes and longitudes and the same coordinate values as the dataset.",
  "all datasets","acceptance tolerance vs truncation; offset coordinates untested",[f"{IO}:from_dataset"])
p("C57","from_dataset rejects irregular grids",
  "Datasets with missing lon/lat coordinates, unequal spacing, westward longitudes, northward latitudes, regional extent or mismatched lon/lat spacing raise instead of returning states.",
  "all coordinate arrays","all coordinate arrays",[f"{IO}:from_dataset"])
p("C58","from_dataset flattens all extra dimensions in row-major order",
  "The number of returned states is the product of the sizes of the extra dimensions, state number i holds the i-th lon-lat slab in row-major order with its own time coordinate (or time_fill when there is none).",
  "all numbers and sizes of extra dimensions","arbitrary rank",[f"{IO}:from_dataset"])
p("C59","from_dataset construction priority and name detection",
  "Wind is used if both components are available, otherwise relative vorticity, otherwise absolute vorticity, otherwise ValueError; override names win over detection; earlier names in the documented order win over later ones.",
  "all sets of available variables and overrides","exponentially many combinations",[f"{IO}:from_dataset",f"{IO}:_select_var"])
p("C60","as_dataset assigns dimensions by shape",
  "Every exported variable has the concatenation dimension first, followed by latitude/longitude according to the shape of the extracted field, never confusing latitude with longitude; unsupported shapes raise NotImplementedError; no states give an empty dataset.",
  "all field shapes, all grids","all shapes and grids",[f"{IO}:as_dataset"])
p("C61","as_dataset followed by from_dataset restores the states",
  "from_dataset(as_dataset(states)) returns as many states with the same times and (exact transforms assumed) the same PV.",
  "all StateLists","all lists incl. equal times and single states",[f"{IO}:as_dataset",f"{IO}:from_dataset"])
# ---- Filters -------------------------------------------------------------
p("C62","Filter windows have odd width and unit sum",
  "get_filter_window returns an odd number of points within 1.5 gridpoints of the requested width, non-negative and summing to 1, for boxcar, triangular and Hann windows.",
  "all widths and resolutions","all widths",[f"{G}:Grid.get_filter_window"])
p("C63","filter_zonal is a periodic, mean-preserving, non-amplifying smoother",
  "With a window summing to 1 filter_zonal preserves constants and the zonal mean, commutes with rotations about the polar axis, is linear, and with a non-negative window never exceeds the range of the data.",
  "all fields and windows","all fields and windows",[f"{G}:Grid.filter_zonal"])
p("C64","filter_meridional preserves constants and the range of the data",
  "With a non-negative window of unit sum filter_meridional maps constants to themselves, stays in the range of the data, treats 2D fields column by column and commutes with the north-south reflection for symmetric odd windows.",
  "all fields and windows","all fields and windows",[f"{G}:Grid.filter_meridional"])
p("C65","filter_by_wavenumber applies at each point the Hann window of that point's wavenumber",
  "The value at (i,j) is the zonal periodic Hann average of the row with the odd width 2*floor(nlon/k)+1 for the wavenumber k clipped to [1, nlon/2] at that point; constants are preserved, the range is not exceeded, and 1D wavenumbers act like the broadcast 2D field.",
  "all fields and wavenumber fields","all fields",[f"{DI}:filter_by_wavenumber"])
# ---- Fourier -------------------------------------------------------------
p("C66","Zonal Fourier restriction keeps exactly the requested wavenumbers",
  "Restricting the zonal spectrum to [kmin, kmax] reproduces waves inside the range, removes waves outside, is linear and idempotent, and keeps the shape of the field.",
  "all fields, all ranges, all nlon","all fields; odd nlon untested",[f"{DI}:_restrict_fourier_zonal"])
p("C67","envelope_hilbert of a wave is its amplitude",
  "For a single zonal wave inside the wavenumber range the envelope is its constant amplitude, for waves outside the range it is zero, and the envelope is nowhere smaller than the absolute value of the band-passed field.",
  "all amplitudes, phases, wavenumbers","all amplitudes and phases",[f"{DI}:envelope_hilbert"])
p("C68","dominant_wavenumber_fourier returns the wavenumber of maximum power",
  "Without smoothing the result at each latitude is the wavenumber in the given range with the largest Fourier power at that latitude.",
  "all fields and ranges","all fields and ranges",[f"{DI}:dominant_wavenumber_fourier"])
# ---- FALWA ---------------------------------------------------------------
p("C69","FALWA is non-negative",
  "diagnostics.falwa is >= 0 at every longitude and equivalent latitude for both quadrature schemes, also after interpolation to the grid.",
  "all PV fields and contour levels","all PV fields",[f"{DI}:falwa"])
p("C70","FALWA vanishes for zonally symmetric monotone PV",
  "If PV depends on latitude only and strictly decreases southward, falwa (sptrapz) is identically zero.",
  "all monotone zonal PV profiles","all profiles, exact cancellation",[f"{DI}:falwa"])
p("C71","State.fawa equals diagnostics.fawa",
  "The zonal mean of interpolated FALWA (State.fawa) equals the interpolated zonal mean of FALWA (diagnostics.fawa).",
  "all states","identity over all fields",[f"{ST}:State.fawa",f"{DI}:fawa"])
# ---- Stationary wavenumber ----------------------------------------------
p("C72","The three variants of the stationary wavenumber agree",
  "'real' carries the sign of 'squared' and its square is the absolute value of 'squared'; 'complex' squared is 'squared'; at every latitude exactly one of the real and imaginary part of 'complex' can be non-zero; infinite where and only where u is small and the PV gradient is non-zero, never NaN; unknown kinds raise ValueError.",
  "all wind and PV profiles","all profiles incl. zeros",[f"{DI}:stationary_wavenumber"])
p("C73","Waveguides are ordered, disjoint and inside the domain",
  "extract_ks_waveguides returns intervals (start, end) from north to south with 90 >= start >= end >= -90, consecutive intervals not overlapping.",
  "all profiles and wavenumbers","all profiles of any length",[f"{DI}:extract_ks_waveguides"])
p("C74","Waveguides contain exactly the latitudes with Ks above k",
  "Every grid latitude with Ks > k lies in a returned waveguide, no grid latitude with Ks < k lies in one, and the inner boundaries are the linear-interpolation crossings of Ks with k.",
  "all profiles and wavenumbers","all profiles",[f"{DI}:extract_ks_waveguides"])
p("C75","Waveguide boundaries are never NaN",
  "All boundaries returned for a NaN-free profile (infinite values allowed, as produced by stationary_wavenumber) are finite numbers.",
  "all profiles with infinities","all profiles",[f"{DI}:extract_ks_waveguides"])
# ---- Init ----------------------------------------------------------------
p("C76","zonally_symmetric broadcasts the profile along longitude",
  "The PV (or wind) used to build the state has profile[i] at every longitude of latitude i; profiles of wrong size are rejected, and giving both or neither of u and pv raises ValueError.",
  "all profiles and grids","all profiles",[f"{IN}:zonally_symmetric"])
p("C77","Initial jets vanish at the poles",
  "The zonal wind of gaussian_jet, held_1985 and solid_body_rotation is exactly zero at both poles for all parameters; solid_body_rotation is largest at the equator; all are zonally symmetric with v = 0.",
  "all parameters and grids","all parameters",[f"{IN}:gaussian_jet",f"{IN}:held_1985",f"{IN}:solid_body_rotation"])
# ---- Formatting and plot helpers ----------------------------------------
p("C78","format_time shows the same instant in a larger unit",
  "The number and unit shown for a numeric time denote the same duration in seconds, the unit is the documented cascade (s up to 120, min up to 120, h up to 240, then d), and every State can be displayed.",
  "all times, including those produced by from_dataset","all times; 0-d array times untested",[f"{FO}:format_time",f"{FO}:state_repr"])
p("C79","sub/sup translation is faithful",
  "Sub- and superscript translation of integers preserves length and is injective.",
  "all integers","all integers",[f"{FO}:sub",f"{FO}:sup"])
p("C80","roll_lon centres the requested meridian and labels stay correct",
  "After rolling, the column in the middle of the array is the one closest to the requested longitude, the roll is a rotation, and the axis label offset gives every column its true longitude.",
  "all grids and centre longitudes","all centres; near-360 centres untested",[f"{PL}:roll_lon",f"{PL}:configure_lon_x"])
p("C81","symmetric_levels are symmetric, increasing and cover the data",
  "The levels are antisymmetric about 0, strictly increasing and (without override) enclose all data values, for every field and n >= 2.",
  "all fields","all fields",[f"{PL}:symmetric_levels"])
p("C82","Waveguide plot ticks include 0",
  "The wavenumber ticks are equally spaced integers and contain 0 whenever 0 is in the displayed range.",
  "all axis bounds","all bounds",[f"{PL}:waveguides"])
p("C83","reduce_vectors subsamples all inputs identically",
  "All four outputs are taken at the same gridpoints, with the same stride in both directions, at least one point is kept, and the number of rows kept is within the expected bounds.",
  "all shapes and ny","all shapes",[f"{PL}:reduce_vectors"])
p("C84","hovmoellerify places time on the documented axis",
  "Meridional profiles give (times, lat, field[lat,time]), zonal profiles (lon, times, field[time,lon]); other sizes and no states raise ValueError.",
  "all state sequences","all sequences",[f"{PL}:hovmoellerify"])
p("C85","The text map of a region marks exactly the boxes that contain selected points",
  "In repr(region) the character in row k and column l is X exactly if the region has a latitude in the k-th 20-degree band from the north and a longitude in the l-th 10-degree band eastward from 0.",
  "all non-empty regions","all regions",[f"{FO}:grid_region_repr"])
p("C86","Averaging an extracted field equals averaging the full field in the region",
  "grid.mean(region.extract(field), axis, region=region) equals grid.mean(field, axis, region=region).",
  "all regions, fields and axes","full-width regions that wrap across 0E untested",[f"{G}:Grid.mean",f"{G}:GridRegion.extract"])
# ---- appended properties ----
p("C87","boxcount quadrature is the exact integral of the nearest-gridpoint step function",
  "quad_meridional(y, z, 'boxcount') returns for every longitude exactly the integral over latitude of r*Y(phi)*cos(phi) restricted to Z(phi) >= 0 where Y and Z take at every latitude the value of the nearest gridpoint.",
  "all fields y and z, all grids","equality of a finite sum with an integral for all real data",[f"{G}:Grid.quad_meridional",f"{G}:Grid.gridpoint_area"])
p("C88","Every time step solves the semi-implicit scheme coefficient by coefficient",
  "Without diffusion background, an Euler step of dt seconds satisfies (1 + dt*coeff*(n(n+1)/r^2)^order) * q_new = q + dt*tendency for every spectral coefficient of degree n, and a leapfrog step the same equation with q of the old state, the tendency of the current state and 2*dt; the tendency is minus the divergence of the PV flux plus the transformed forcing.",
  "all states, forcings, steps and diffusion orders","identity over all coefficients and states",[f"{M}:BarotropicModel.euler",f"{M}:BarotropicModel.leapfrog",f"{M}:BarotropicModel._pv_tendency_spectral"])
p("C89","Grid.wind inverts vorticity and divergence, gridded or spectral",
  "The wind computed from vorticity and divergence has that vorticity and divergence up to their global means, which are dropped; gridded and spectral arguments standing for the same field give the same wind; vorticity and divergence are the gridded counterparts of vorticity_spectral and divergence_spectral.",
  "all resolved vorticity and divergence fields, each gridded or spectral, on all grids","all combinations of gridded and spectral input; inversion identity over all fields",[f"{G}:Grid.wind",f"{G}:Grid.vorticity",f"{G}:Grid.divergence"])
p("C90","The gridded Laplacian, Poisson and diffusion solvers act on the spectrum like the spectral ones",
  "laplace multiplies coefficient n by -n(n+1)/r^2; laplace and solve_poisson are inverse to each other up to mean and truncation, and commute; solve_poisson with op_add solves (laplace - op_add) f = rhs except in the mean; solve_diffusion solves the implicit Euler equation.",
  "all gridded fields (resolved or not), all grids","identities over all fields",[f"{G}:Grid.laplace",f"{G}:Grid.solve_poisson",f"{G}:Grid.solve_diffusion"])
p("C91","The gradient has no curl, its divergence is the Laplacian, and constants do not matter",
  "vorticity(gradient(f)) is zero, divergence(gradient(f)) = laplace(f), gradient(f + c) = gradient(f).",
  "all gridded fields and constants","identities over all fields",[f"{G}:Grid.gradient",f"{G}:Grid.laplace"])
p("C92","quad_meridional accepts exactly the fields with the latitudes of the grid",
  "Without z, quad_meridional succeeds exactly if the field is 2D with nlat rows and the method is boxcount, or sptrapz with at most nlon columns; wrong rank or rows raise AssertionError, unknown methods and too wide fields ValueError; the result has one value per column. With a domain field z, sptrapz succeeds exactly if z has the shape of the field and raises IndexError otherwise.",
  "all arrays, methods and grids","the set of all shapes and method names is infinite",[f"{G}:Grid.quad_meridional"])
p("C93","The wavelet dominant wavenumber is that of the scale with the largest power",
  "dominant_wavenumber_wavelet assigns every gridpoint the wavenumber of the first of the 120 logarithmically spaced scales with the largest wavelet power of the periodically continued row after removal of wavenumbers above 20; the result lies between the wavenumbers of the largest and the smallest scale, also after smoothing, and the scales meet each wavenumber from 1 to 20 within a factor of 1.02.",
  "all fields, grids and wavelet transforms","argmax over all fields and all wavelet transforms",[f"{DI}:dominant_wavenumber_wavelet"])
p("C94","zonalize gives a profile that decreases from the north pole to the south pole and preserves the areas",
  "For contour levels that increase within the range of the field (so for automatic levels) zonalize returns a profile that does not increase southward, with the maximum of the field at the north pole and the minimum at the south pole, whose value at the latitude of every gridpoint lies above a contour exactly if the area enclosed by the contour reaches beyond that latitude; constant fields give constant profiles.",
  "all fields, levels within the range, quadrature methods and grids","areas under contours of arbitrary fields",[f"{G}:Grid.zonalize"])
p("C95","A State is made from exactly one of PV and spectral PV and keeps what it is given",
  "State(grid, time, pv, pv_spectral) succeeds exactly if one of pv and pv_spectral is given, both raise AssertionError; grid, time and spectral PV are those passed, the gridded PV has the spectrum of the PV passed and is the PV passed if it is resolved.",
  "all arguments","all combinations and fields",[f"{ST}:State.__init__",f"{ST}:State.pv",f"{ST}:State.pv_spectral"])
p("C96","The panels of the figures show the fields of the state at the labelled coordinates",
  "In summary, wave_activity and rwp_diagnostics every contour plot shows at the coordinates of a gridpoint, after the longitude relabelling of the axis, the value of the plotted field at that gridpoint; wind vectors are drawn at the gridpoint they belong to; the profile panels show the zonal means, with potential = planetary + relative vorticity.",
  "all states, centre longitudes and hemispheres","figures are only inspected by eye",[f"{PL}:summary",f"{PL}:wave_activity",f"{PL}:rwp_diagnostics"])
p("C97","Every state can be plotted",
  "summary, wave_activity and rwp_diagnostics return a figure for every state, centre longitude and hemisphere and every non-negative colour range.",
  "all states","degenerate states (rest, zonally symmetric) are easily missed",[f"{PL}:summary",f"{PL}:wave_activity",f"{PL}:rwp_diagnostics"])
p("C98","All panels of a figure show the requested hemisphere",
  "hemisphere 'N' limits the latitudes shown in every panel to the northern hemisphere, 'S' to the southern hemisphere, anything else shows all latitudes.",
  "all figures, states and values of hemisphere","all panels of all figures",[f"{PL}:summary",f"{PL}:wave_activity",f"{PL}:rwp_diagnostics",f"{PL}:waveguides"])
p("C99","The waveguide figure draws one vertical line segment per waveguide",
  "For every requested wavenumber the figure shows exactly the line segments (k, south)-(k, north) of the waveguides that extract_ks_waveguides finds, not connected with each other, beside the stationary wavenumber and the zonal-mean wind.",
  "all states and wavenumbers","NaN-separated polylines for any number of waveguides",[f"{PL}:waveguides"])
p("C100","The representation of a model shows the equation that the model integrates",
  "repr(model) shows ∂q/∂t = -∇(u·q) - κ∇ⁿq + RHS with an exponent n that is twice the diffusion order, and one time step of the model without diffusion background solves this equation with the diffusion term taken at the new time.",
  "all models, states, time steps","equality of a printed operator and the executed one over all orders and states",[f"{FO}:barotropic_model_repr",f"{M}:BarotropicModel.euler"])
p("C101","The representation of a forcing expression is unambiguous",
  "Two right-hand-side expressions built with + and * with the same repr are the same expression of the same terms, if the texts of the terms contain no parentheses and no ' +' or ' *' and determine the terms. Sums and products are shown in parentheses with the operands in the order in which they are written.",
  "all expressions of any depth","unbounded nesting",[f"{RH}:_RHSSum.__repr__",f"{RH}:_RHSProduct.__repr__"])
p("C102","The representation of a grid identifies the grid",
  "Two grids with the same repr have the same size, resolution, planet and truncation, and store Legendre functions in the same way, if floats are printed faithfully on one line.",
  "all grids","all pairs of grids",[f"{FO}:grid_repr"])
p("C103","Phase-filtered wave activity keeps the zonal mean and is filtered with the doubled dominant wavenumber",
  "State.falwa_filtered is at each latitude a Hann-weighted running mean of FALWA whose window reaches over one wavelength of the doubled dominant wavenumber of v to both sides; its zonal mean is State.fawa, it stays within the range of FALWA on the latitude and is not negative.",
  "all states with FALWA free of NaN","identity of means over all fields and window widths",[f"{ST}:State.falwa_filtered"])
p("C104","State.v_envelope_hilbert is the envelope of the waves in v with wavenumbers 2 to 10",
  "For v made of a single wave per latitude the envelope is its amplitude if the wavenumber is 2 to 10 and zero otherwise; for any v it has the shape of the grid and bounds the part of v with wavenumbers 2 to 10.",
  "all states and wavenumbers","all fields",[f"{ST}:State.v_envelope_hilbert"])
p("C105","from_hn2016 without a grid recovers the state given to as_hn2016",
  "State.from_hn2016(None, time, state.as_hn2016()) creates a grid that matches the input and gives a state with the PV and the grid of the original state.",
  "all grids and states","all resolutions",[f"{ST}:State.from_hn2016",f"{ST}:State.as_hn2016"])
p("C106","In double precision the shape of a grid is exact up to one rounding",
  "For every double resolution, nlon (nlat - 1) computed in IEEE double arithmetic is the integer part of 360/resolution (180/resolution), or the integer above if the quotient falls short of it by less than half a unit in the last place; it is exact if the resolution divides the circle, and for resolutions computed as 180/n or 360/n it is n (2n) or one less.",
  "every positive double resolution with quotient below 2^52; all n up to 2^49","2^63 floats; deviations only at isolated resolutions",[f"{G}:Grid.__init__"])
p("C107","Integrations with integer times are not affected by rounding of the clock",
  "If initial time, time step, end time and save interval are integers, or integer multiples of a common power of two, that fit into 53 bits, BarotropicModel.run gives in double precision the same states, times, saved states and exceptions as with exact times, and it ends.",
  "all models, states and such times","times and step lengths are recomputed from rounded differences at every step",[f"{M}:BarotropicModel.run",f"{M}:BarotropicModel.leapfrog"])
p("C108","In double precision the clock of an integration drifts only slightly and reaches the end time",
  "leapfrog recomputes the time step from two rounded times, so the length of the steps drifts. For time steps of any value, step n deviates from dt by at most (n+1)*S*2^-49*dt and the time by n^2*S*2^-49*dt (S: bound on number of steps and initial time in steps, up to 2^24), and run ends less than 1.5 dt after the requested time if start and end are at most 2^21 steps from time 0.",
  "all doubles within these bounds","accumulated rounding over millions of steps",[f"{M}:BarotropicModel.run",f"{M}:BarotropicModel.leapfrog"])
p("C109","Wave activity and zonalization do not depend on the choice of the first longitude",
  "Renumbering (in particular rotating) the longitudes of a PV field renumbers its local wave activity (falwa) in the same way and leaves fawa, zonalize and quad unchanged.",
  "all grids, fields, quadratures, levels and permutations of the longitudes","all permutations",[f"{DI}:falwa",f"{DI}:fawa",f"{G}:Grid.zonalize",f"{G}:Grid.quad"])
p("C110","Wave activity scales with the unit of PV and does not depend on its zero",
  "For a > 0, falwa and fawa of a*q+b are a times those of q, at the same equivalent latitudes, and zonalize gives a*Q+b; failures stay failures.",
  "all fields, levels, quadratures, a > 0 and b","comparisons with thresholds and sorting under all rescalings",[f"{DI}:falwa",f"{DI}:fawa",f"{G}:Grid.zonalize"])
p("C111","Integrations commute with rotations of the sphere and reflection in the equator",
  "If initial state, background PV and forcing are rotated by a gridpoint about the axis (or reflected in the equator, PV and northward wind with the opposite sign), run returns the rotated (reflected) states, at the same times and with the same errors; zonally symmetric states stay zonally symmetric and states symmetric about the equator stay so under a model with that symmetry.",
  "all models, states, forcings, time steps and lengths of integration","all states and arbitrarily long integrations",[f"{M}:BarotropicModel.run",f"{M}:BarotropicModel.pv_tendency_spectral",f"{ST}:State.pv_flux_spectral"])
p("C112","Zonally symmetric flow is steady",
  "Without forcing and with no diffusion, or diffusion towards the initial PV, run keeps the PV of a zonally symmetric state in all returned states; such states have no northward wind and no divergence of the PV flux, and all states of init.py are zonally symmetric.",
  "all zonally symmetric states, in particular all of init.py, and integrations of any length","all profiles and arbitrarily long integrations",[f"{M}:BarotropicModel.run",f"{IN}:zonally_symmetric",f"{IN}:gaussian_jet",f"{ST}:State.pv_flux_spectral"])
p("C113","Forcing terms and forced integrations commute with rotations of the sphere and reflection in the equator",
  "Sums and products of functions, switches, LinearRelaxation and orographic forcing commute with rotation by any number of gridpoints, and with reflection in the equator, if reference PV and relief are rotated or reflected (and a fixed Coriolis parameter changes sign in the reflection); run with such forcing returns the rotated or reflected states. If forcing, background and initial PV repeat every n gridpoints, PV and wind of all states do, for ZonalSineMountains of wavenumber k whenever k*n is a multiple of nlon; mountains on the equator are their own reflection.",
  "all forcing expressions of these terms, states, models and integrations","all expressions and arbitrarily long integrations",[f"{RH}:Orography.__call__",f"{RH}:LinearRelaxation.__call__",f"{RH}:ZonalSineMountains",f"{RH}:GaussianMountain",f"{M}:BarotropicModel.run"])
p("C114","Wave activity and zonalization treat both hemispheres alike",
  "For the PV field reflected in the equator with opposite sign, contours with the opposite levels (the automatic ones are) have opposite equivalent latitudes, zonalize returns the reversed profile with opposite sign and falwa and fawa the reversed wave activity with the same sign, if the resolution divides the circle, no contour has an area of its own (no neighbouring points on a meridian, or for boxcount no points at all, with exactly the value of the contour) and, for interpolation, the contours have different latitudes.",
  "all fields, levels, quadratures and grids under these conditions","sign conventions, ties and orderings over all fields",[f"{G}:Grid.zonalize",f"{G}:Grid.quad_meridional",f"{G}:Grid.equivalent_latitude",f"{DI}:falwa",f"{DI}:fawa",f"{ST}:State.fawa"])
p("C115","Contour levels and wind vectors of the figures",
  "Whenever a figure is drawn, its filled contours of PV, meridional wind and PV deviation have equally spaced levels symmetric about 0 up to the largest magnitude or the given limit (-1 and 1 for 0), 11 on the globe and 17 on a hemisphere for PV and 10 for the others; streamfunction lines are drawn unless it is constant, at 10 (14) levels from its minimum to its maximum; PV lines at the inner 8 (12) of 10 (14) levels; envelope and filtered FALWA share 6 levels from 0 to the larger of both maxima; wind vectors are those of every step-th row and column from step/2, where step is the number of latitudes divided by 13 (21), at least 1.",
  "all states, hemispheres, centers and limits","levels are not checked by tests of the figures",[f"{PL}:summary",f"{PL}:wave_activity",f"{PL}:rwp_diagnostics",f"{PL}:symmetric_levels",f"{PL}:reduce_vectors"])
p("C116","Relaxation reaches its reference when rate times step is below 1/3 and not above",
  "With LinearRelaxation the filtered leapfrog integration of a zonal flow comes and stays arbitrarily close to a zonal reference in every spectral coefficient if 0 < rate*dt < 1/3, without diffusion or with diffusion towards the reference; the global mean PV of any flow does so with any diffusion of order at least 1; final states of run with late enough tend are as close as desired. Without diffusion and with rate*dt at least 1/3 (other than 3/2, where the time filter hides the growing mode and the returned states do converge) every coefficient that differs initially ends up and stays farther away than some positive distance.",
  "all zonal flows and references (all flows for the mean), rates, steps, truncations, transforms with the stated symmetries","limits of unboundedly long integrations and a sharp stability bound",[f"{RH}:LinearRelaxation.__call__",f"{M}:BarotropicModel.leapfrog",f"{M}:BarotropicModel.run"])
p("C117","Diffusion alone brings zonal flow to the background or to uniform PV",
  "Without forcing, with a positive diffusion coefficient and any time step, every spectral coefficient but the mean of the PV of a zonal flow comes and stays arbitrarily close to that of a zonal diffusion_bg; without diffusion_bg and with diffusion_order at least 1 the PV comes and stays arbitrarily close to the constant with the same global mean.",
  "all zonal flows and backgrounds, coefficients, orders, steps, truncations, transforms with the stated properties","limits of unboundedly long integrations for every step size",[f"{M}:BarotropicModel._apply_diffusion",f"{M}:BarotropicModel.leapfrog",f"{G}:Grid.solve_diffusion_spectral"])
p("C118","Stationary wavenumber and waveguides do not depend on the first longitude and treat both hemispheres alike",
  "Renumbering the longitudes of wind and PV does not change the stationary wavenumber. Reflecting the wind in the equator, and the PV with the opposite sign, reverses its profile from north to south, for given or missing PV and all kinds of output, with the same errors. The waveguides extracted from a reversed profile are the reflected waveguides. The same holds for the properties of a State.",
  "all grids, fields and profiles, orders, thresholds and kinds; all profiles with infinite values; transforms with the stated properties","symmetry over all profiles, including infinite wavenumbers",[f"{DI}:stationary_wavenumber",f"{DI}:extract_ks_waveguides",f"{ST}:State.stationary_wavenumber",f"{ST}:State.extract_ks_waveguides",f"{G}:Grid.derivative_meridional"])
p("C119","The mean over a region is the area-weighted average over its mask",
  "GridRegion.mean(field) is the average, weighted by gridpoint area, of the values at the gridpoints where GridRegion.mask is True. A field from which the region has been extracted already has the same mean unless it has the shape of the grid; other shapes raise AssertionError; the mean over an empty region is not a number.",
  "all grids, regions and fields","agreement of two public attributes over all selections, including those that wrap across 0E",[f"{G}:GridRegion.mean",f"{G}:GridRegion.mask",f"{G}:Grid.mean"])
p("C120","Diagnostics give the same for a State and for its fields on its grid",
  "Finite-amplitude wave activity of a State is that of its PV on its grid, and the State's stationary wavenumber is that of its zonal wind on its grid. An array without a grid raises AttributeError.",
  "all States, transforms, levels, quadratures, orders and thresholds","two entry points over all inputs; the difference between them depends on the grid and the PV",[f"{DI}:_get_grid_vars",f"{DI}:falwa",f"{DI}:fawa",f"{DI}:stationary_wavenumber"])
p("C121","Zonal wave diagnostics do not depend on the first longitude or on the direction of longitude",
  "If the longitudes of a field are renumbered from another longitude, eastward or westward, the dominant wavenumber stays the same, and the field restricted to a range of wavenumbers, its envelope and the field filtered by wavenumber are renumbered likewise. The phase-filtered wave activity and the envelope of the northward wind of a rotated State are those of the State, rotated.",
  "all fields, numbers of longitudes, wavenumber ranges, profiles and fields of wavenumbers, and States","tests look at single fields with the default first longitude; the claim is over all renumberings",[f"{DI}:_restrict_fourier_zonal",f"{DI}:dominant_wavenumber_fourier",f"{DI}:envelope_hilbert",f"{DI}:filter_by_wavenumber",f"{ST}:State.falwa_filtered",f"{ST}:State.v_envelope_hilbert"])
p("C122","Accuracy of the stationary wavenumber",
  "If the PV profile samples a smooth function Q of latitude, the squared stationary wavenumber at every latitude between the poles whose wind exceeds the threshold differs from r cos^2(phi) Q'(phi)/u by at most r cos^2(phi)/|u| times the error of the finite difference (second or fourth order in the spacing, explicit constants). For solid-body rotation with speed U at the equator it is 2 cos^2(phi) (1 + Omega r/U) up to that error, so westerlies have a real and easterlies slower than the planet an imaginary wavenumber wherever the cosine of the latitude exceeds the error.",
  "all grids, smooth PV profiles, winds, thresholds, orders and latitudes","tests compare single profiles with stored numbers; the bound is over all smooth profiles and resolutions",[f"{DI}:stationary_wavenumber",f"{G}:Grid.derivative_meridional"])
p("C123","Wavenumber ranges of any numbers",
  "For any two numbers kmin and kmax, restricting a field to a wavenumber range, its envelope and its dominant wavenumber take into account exactly the wavenumbers k with kmin <= k <= kmax. If the range contains none, the restriction is 0 and the dominant wavenumber raises a ValueError. Ranges that are not pairs are rejected with an AssertionError.",
  "all fields and all pairs of numbers, including negative ones and ones that are not integers","tests use the default ranges",[f"{DI}:_restrict_fourier_zonal",f"{DI}:dominant_wavenumber_fourier",f"{DI}:envelope_hilbert"])
p("C124","Zonal Fourier restriction of fields with an odd number of longitudes",
  "For an odd number n of longitudes the restricted field has n-1 longitudes and the same Fourier sums over the longitudes in the range of wavenumbers (except that the sine part of the largest wavenumber is lost), 0 outside of it. Hence the zonal mean and every wave in the range below the largest wavenumber come back multiplied by n/(n-1), of the wave with the largest wavenumber half of the cosine part times that factor, and the envelope of a wave is its amplitude times n/(n-1).",
  "all fields, odd numbers of longitudes from 3, wavenumber ranges, amplitudes and phases","tests use grids with even numbers of longitudes",[f"{DI}:_restrict_fourier_zonal",f"{DI}:envelope_hilbert"])
p("C125","Meridional derivative and stationary wavenumber for every resolution",
  "For every resolution the meridional derivative is that of the function divided by eta = (nlat-1)*resolution/180: eta times the derivative is exact on polynomials up to the order and within the error bound of the order (in terms of the actual spacing of latitudes) for smooth functions, and the same holds for the squared stationary wavenumber. eta lies above 1-resolution/180 and is at most 1, and it is 1 if and only if 180/resolution is an integer, so the relative error that is due to the nominal spacing is less than resolution/(180-resolution).",
  "all grids, orders, polynomials, smooth functions, profiles and fields","tests use resolutions which divide 180",[f"{G}:Grid.derivative_meridional",f"{G}:Grid.__init__",f"{DI}:stationary_wavenumber"])
p("C126","Grid coordinates in double precision",
  "With the rounding of IEEE double precision the latitudes of a grid go from exactly 90 to exactly -90 degrees, are strictly decreasing and differ from the equidistant latitudes by at most 2^-44 degrees; the longitudes start at exactly 0, are strictly increasing, below 360, and differ from the equidistant ones by at most 2^-43 degrees. If the spacing is a multiple of a power of two (such as the default 2.5), all coordinates are exact. In general, however, they are not symmetric about the equator and the middle latitude need not be 0.",
  "all numbers of latitudes and longitudes up to 2^40","tests compare a few grids approximately",[f"{G}:Grid.__init__"])
p("C127","Selection of regions in double precision",
  "If the spacing is a multiple of a power of two, the selection of latitudes and longitudes in double precision returns exactly the gridpoints between the given bounds, bounds included, in the same order as with exact arithmetic, and the equator belongs to both hemispheres. For every spacing, all gridpoints inside the bounds by more than 2^-44 (longitudes: 2^-43) degrees are selected and none that is outside by more; the poles and the 0-meridian are selected exactly when asked for. In general, however, gridpoints on the bounds can be missed: latitude 62.4 by the selection up to 62.4 with resolution 1.2, the equator by one of the hemispheres with 79 or 339 latitudes.",
  "all numbers of latitudes and longitudes up to 2^40, all pairs of bounds that are doubles or None","tests select regions of a few grids",[f"{G}:GridRegionIndexer._get_lat_indices",f"{G}:GridRegionIndexer._get_lon_indices",f"{G}:Grid.__init__"])
p("C128","Power of zonal waves: Parseval, projection, scaling",
  "Along every latitude with an even number of longitudes the sum of squares is the weighted sum of the powers of all wavenumbers, and that of the restricted field is the sum over the wavenumbers in the range. The restricted field is the orthogonal projection onto the waves in the range: the sums of squares of it and of the rest add up to that of the field, and of all fields made of such waves it is the closest. If the range excludes the zonal mean and the smallest resolved wave, the squares of the envelope sum up to twice the squares of the waves. Waves and envelope are proportional to the field, and the dominant wavenumber does not depend on the unit of the field.",
  "all fields with an even number of longitudes (dominant wavenumber: any), ranges and factors","tests look at single waves",[f"{DI}:_restrict_fourier_zonal",f"{DI}:envelope_hilbert",f"{DI}:dominant_wavenumber_fourier"])
p("C129","Laplacian eigenvalues in single precision",
  "The eigenvalues of the Laplacian, computed in double precision and cast to complex64, are off by at most the fraction 2^-23, are zero for degree 0 only, and grow strictly with the degree. The Laplacian of a coefficient followed by the inverse Laplacian, computed in single precision, gives the coefficient back up to the fraction 2^-22, but not always exactly.",
  "all radii that are doubles from 1 to 2^30, degrees up to 2^20 and coefficients that are 0 or between 2^-60 and 2^60 in magnitude","tests use tolerances and a few grids",[f"{G}:Grid.__init__",f"{G}:Grid.laplace_spectral",f"{G}:Grid.solve_poisson_spectral"])
p("C130","Diffusion in single precision: accuracy and underflow",
  "As long as no power of a non-zero eigenvalue underflows, the diffusion step computed in complex64 is off by at most the fraction (order + 2) 2^-22; this holds for the orders 1 and 2 on all grids. With order 4 or more, coefficients whose eigenvalue is at most 2^-38 (degree 11 on Earth) are not changed at all, and with order 5 or more no coefficient is changed where no eigenvalue exceeds 2^-32 (2.5 degree grid on Earth), whatever the coefficient and time step: not every varying part of the field is damped.",
  "all fields, coefficients and time steps with dt*coeff in the range of single precision, orders from 1 to 99","no test uses an order above 2; the effect of underflow depends on radius, degree and order",[f"{G}:Grid.solve_diffusion_spectral"])
p("C131","Single coordinates in double precision",
  "A number selects a latitude or longitude of a grid in double precision where it is within 1e-8 + 1e-5*|x| of exactly one coordinate, up to rounding; otherwise IndexError is raised. Up to 190000 steps of latitude and 99000 longitudes every double within 1e-9 of a coordinate, and in particular the grid's own value, selects that coordinate. Infinities and NaN raise IndexError. On finer grids the tolerance includes the neighbours: the poles and the last longitude cannot be selected; 360 does not select the 0-meridian.",
  "all grids up to 2^40 coordinates, all doubles up to 2^52 in magnitude, infinities and NaN","tests select a few values on coarse grids",[f"{G}:GridRegionIndexer._get_lat_indices",f"{G}:GridRegionIndexer._get_lon_indices"])
p("C132","Rossby-Haurwitz waves in integrations",
  "Without forcing and diffusion, a flow made of a solid-body rotation and harmonics of one degree n keeps this form in every step. Each harmonic of order m turns with the frequency m*((2*omega + a)/(n*(n+1)) - a/2) up to an error of first order in the time step, so integrations to a fixed time converge to the exact solution when the step is shortened. Zonal harmonics do not change. Because of the Robert-Asselin filter every moving wave dies out when frequency times step is below sqrt(2/3) in magnitude; at that value waves stay bounded, beyond it they grow without bound.",
  "all grids, radii, rotation rates, degrees, solid-body rotations, wave amplitudes and phases, time steps and numbers of steps, numbers and dates","tests integrate one wave with one time step for a short time",[f"{M}:BarotropicModel.run",f"{M}:BarotropicModel.euler",f"{M}:BarotropicModel.leapfrog",f"{ST}:State.pv_flux_spectral"])
p("C133","Spherical harmonics on the points of a grid",
  "On every grid, transforms built from spherical harmonics (Rodrigues' formula) and quadrature on the latitudes of the grid have the properties that theorems about spectral methods assume: harmonics up to a degree D below half of the numbers of latitudes and longitudes are analysed and synthesised exactly; winds, vorticity, divergence, gradient and Laplacian are those of the continuous functions; rotations and reflections act on the coefficients as they should; and products are free of aliasing if 2n+D does not exceed the numbers of latitudes (n the degree of the wave). So Rossby-Haurwitz waves on fine enough grids converge without any assumption on transforms. The coefficient of highest order and degree cannot be analysed on grids with the default truncation.",
  "all grids, radii, truncations, degrees and fields","tests compare a few fields with a tolerance on one grid",[f"{G}:Grid.__init__",f"{G}:Grid.to_spectral",f"{G}:Grid.to_grid",f"{G}:Grid.gradient",f"{G}:Grid.vorticity_divergence",f"{G}:Grid.wind"])
p("C134","Energy, enstrophy and angular momentum",
  "With spherical-harmonic transforms and neither forcing nor diffusion, the tendency of PV changes neither the mean kinetic energy (State.energy) nor the angular momentum of the flow, nor the mean enstrophy (State.enstrophy) if 3 times the highest degree D fits the numbers of latitudes and longitudes. The first (Euler) step adds the square of the step times the energy and enstrophy of the tendency, and so never weakens a flow. Each leapfrog step leaves the energy and the enstrophy that successive states have in common (half the means of v.v' and q*q') as they are. The angular momentum is exactly constant in all integrations. The energy itself is not: the first step strengthens every Rossby-Haurwitz wave that moves.",
  "all grids, degrees D below half of the numbers of latitudes and longitudes, resolved states, steps (of any length) and numbers of steps","tests integrate a few states and allow for drift",[f"{ST}:State.energy",f"{ST}:State.enstrophy",f"{ST}:State.pv_flux_spectral",f"{M}:BarotropicModel.euler",f"{M}:BarotropicModel.leapfrog",f"{M}:BarotropicModel._pv_tendency_spectral"])
p("C135","Fields of integers",
  "filter_zonal and filter_meridional of an array of integers fail as with floats and otherwise round every filtered value toward zero, so that a field of zeros and ones stays one only where the window sees nothing but ones, and means are not preserved. Meridional interpolation of integers is that of floats if the pole values are integers, and otherwise rounds them toward zero; the same holds for zonalize with an array of integers as levels, which turns every field between -1 and 1 with the level 0 into zeros.",
  "all arrays, windows, latitudes, pole values, levels and grids","tests filter a few fields of floats",[f"{G}:Grid.filter_zonal",f"{G}:Grid.filter_meridional",f"{G}:Grid.interp1d_meridional",f"{G}:Grid.interpolate_meridional",f"{G}:Grid.zonalize"])
p("C136","Coordinates of datasets in double precision",
  "In double precision, from_dataset accepts the coordinates of every grid with 2m longitudes and m+1 latitudes. The grid that it makes has either these numbers or exactly one longitude and one latitude less. The numbers are kept if the spacing is a multiple of a power of two, for all even numbers of longitudes up to 336, and for 4m longitudes if and only if for 2m; they are not kept for 338 (the coordinates of Grid(resolution=1.065)) and its multiples by powers of two. Odd numbers of longitudes up to 40001 are refused.",
  "all m from 2 to 2^39","tests read a few datasets with spacings that are exact in binary",[f"{IO}:from_dataset",f"{G}:Grid.__init__"])
p("C137","Diffusion, energy, enstrophy and angular momentum",
  "With spherical-harmonic transforms, a step of diffusion without background never increases the mean enstrophy (State.enstrophy) and reduces it unless PV is uniform. With the planetary vorticity as diffusion_bg it never increases the mean kinetic energy (State.energy) and divides the angular momentum by 1 + dt*coeff*(2/r^2)^order, so that in every integration without forcing the angular momentum stays between zero and its initial value. Without background it is the absolute angular momentum that is divided by this number, so an atmosphere at rest is set into motion against the rotation of the planet. An Euler step with diffusion adds no more energy and enstrophy than the square of the step times those of the tendency.",
  "all grids, resolved states, orders, steps, non-negative coefficients and numbers of steps","tests run a few integrations and do not look at the budgets",[f"{M}:BarotropicModel._apply_diffusion",f"{G}:Grid.solve_diffusion_spectral",f"{M}:BarotropicModel.euler",f"{ST}:State.energy",f"{ST}:State.enstrophy"])
p("C138","Arrays in memory: nothing that exists is modified",
  "With arrays as mutable objects in memory: reading any attribute of a State, evaluating any forcing expression and running any integration change no array that existed before and give the values of the computation without memory, although the streamfunction and the tendency are built by assignments into arrays. pv, avo, pv_spectral, u, v, streamfunction, pv_zonalized and falwa return the same array at every access, which the State keeps; all other attributes return a new array every time. In any sequence of constructing States, reading attributes, integrating and writing into arrays, a user who writes only into arrays they made (and did not pass as pv_spectral) or that attributes do not keep never changes a State or the value of an attribute. State(pv=...) does not keep the array of the user, but State(pv_spectral=...) does, and values written into state.pv become the gridded PV and enter enstrophy and vorticity while the spectral PV stays.",
  "all memories, States, attributes, forcing expressions, models, integrations and sequences of actions","aliasing shows only in particular sequences of reads and writes",[f"{ST}:State.__init__",f"{ST}:State.pv",f"{ST}:State.pv_spectral",f"{ST}:State.u",f"{ST}:State.streamfunction",f"{G}:Grid.solve_poisson_spectral",f"{M}:BarotropicModel._pv_tendency_spectral",f"{M}:BarotropicModel.run",f"{RH}:RHS"])
p("C139","Fields of machine integers",
  "For fields of machine integers, differences and products are computed modulo a power of two. Grid.derivative_meridional of signed integers is that of the same numbers as floats exactly where the numerator of the finite difference fits into the type, in particular everywhere if all values are below 1/128 (order 4) or 1/8 (order 2) of the largest integer; the order-2 derivative of a profile of unsigned integers is never positive and correct only where the profile does not decrease. Grid.quad with sptrapz is that of floats if the differences between neighbouring latitudes fit, and can be wrong otherwise (unsigned integers that decrease by one), while boxcounting is always that of floats. Grid.zonalize with a number of levels is that of floats for unsigned integers and for signed integers whose range of values fits; otherwise the levels are in descending order and crowd around the middle of the range. With integer levels it is that of floats in half of the range of a signed type, but for unsigned fields it assigns every level to the South Pole.",
  "all grids, integer types, fields, orders, levels and methods","tests use floats",[f"{G}:Grid.derivative_meridional",f"{G}:Grid.quad_meridional",f"{G}:Grid.quad",f"{G}:Grid.zonalize"])
p("C140","Functions that write into parts of arrays",
  "Every function of the package which assigns to items, slices or masked parts of an array of numbers (Grid.derivative_meridional, Grid.solve_poisson_spectral, Grid.gridpoint_area, Grid.quad_meridional with sptrapz, Grid.equivalent_latitude, GridRegion.mask, GridRegion.lon_mono, the zonal Fourier filter, and stationary_wavenumber) gives, executed statement by statement on a memory, the values which the closed formulas of the model without memory give, or the same exception. The writes go to cells that did not exist before the call: all arguments and all arrays of the Grid (latitudes, longitudes, also where slices of them are used) keep their values, even if arguments share cells, and the results are arrays of new, distinct cells. stationary_wavenumber overwrites the array of the squared wavenumber which it made, and nothing else.",
  "all memories, arrays in it (overlapping or not), grids, orders, regions, bounds of the filter and winds","tests compare results for some inputs and do not look at the arguments afterwards",[f"{G}:Grid.derivative_meridional",f"{G}:Grid.solve_poisson_spectral",f"{G}:Grid.gridpoint_area",f"{G}:Grid.quad_meridional",f"{G}:Grid.equivalent_latitude",f"{G}:GridRegion.mask",f"{G}:GridRegion.lon_mono",f"{DI}:_restrict_fourier_zonal",f"{DI}:stationary_wavenumber"])
p("C141","Construction of mountains",
  "GaussianMountain and ZonalSineMountains accept exactly: keyword arguments among their own and those of Orography that are not taken (lon, lat and orography are), a wind made of one of the three names and a factor, a center that can be split in two, and a stdev which is a number or whose first two entries are numbers (stdev_lat: a number). Otherwise they raise: TypeError for names; then ValueError for a wind of wrong size or unknown name and TypeError for one that cannot be iterated over; then the same for the center; then IndexError for a stdev that runs out of entries and TypeError for one with anything else than numbers. With numbers as arguments, the relief is the documented one with the given or default parameters (a single stdev counts for both directions, entries after the second are ignored, signs do not matter) and the forcing is that of an Orography with this relief, scale height, wind and Coriolis parameter.",
  "all sets of keyword arguments made of None, numbers, strings and sequences","tests construct mountains with a few valid arguments",[f"{RH}:GaussianMountain.__init__",f"{RH}:GaussianMountain.orography",f"{RH}:ZonalSineMountains.__init__",f"{RH}:ZonalSineMountains.orography",f"{RH}:Orography.__init__"])
p("C142","Superposition of reliefs",
  "With exact transforms the forcing is linear in the relief: if the heights of one relief are, at all points of the grid, a linear combination of those of two others plus a constant, its forcing is that combination of their forcings, and adding two Orography terms is the same as one term with the added relief. Interpolation to the grid preserves such combinations, so raising a gridded relief as a whole changes nothing. Multiplying heights and scale height by the same number changes nothing.",
  "all reliefs of the three classes, grids, winds, states and coefficients","tests evaluate single mountains",[f"{RH}:Orography.__call__",f"{RH}:Orography.orography",f"{RH}:RHS.__add__"])
p("C143","Orographic forcing and the global mean of PV",
  "Advection and diffusion do not change the global mean of PV: an Euler step changes it by the time step times the global mean of the forcing. Orographic forcing does not change it either: flow over mountains squeezes columns on one side and stretches them on the other, so the global mean of PV is the same in all states of an integration. (True for the winds zon and sbr, where the forcing even averages to zero along every circle of latitude, and for the actual wind with a constant fcor_ref; false for the default, the actual wind with the Coriolis parameter of the grid.)",
  "all grids, resolved states, reliefs, scale heights, wind factors, diffusion parameters, time steps and numbers of steps","tests compare the forcing at few points and do not average it; the drift of a mean is small in short test integrations",[f"{RH}:Orography.__call__",f"{M}:BarotropicModel._pv_tendency_spectral",f"{M}:BarotropicModel.leapfrog"])
p("C144","Torques and the angular momentum of the flow",
  "Without diffusion, an Euler step changes the angular momentum of the flow about the axis by the time step times the torque of the forcing, the global mean of r^2 sin(lat) times the forcing: advection exerts none. Mountains exert none either, so the angular momentum is the same in all states of an integration with orographic forcing. (True for the winds zon and sbr; false for the actual wind, even with a constant fcor_ref, where the global mean of PV is conserved.)",
  "all grids, resolved states, reliefs, scale heights, wind factors, Coriolis parameters, time steps and numbers of steps","the torque is a global mean of products with a weight, which no test computes; the drift is small in short test integrations",[f"{RH}:Orography.__call__",f"{M}:BarotropicModel._pv_tendency_spectral",f"{M}:BarotropicModel.leapfrog"])
p("C145","Elapsed time: timedelta objects as times",
  "Times can be counted from the start of the integration with timedelta objects: run then gives the same states, lists of states and exceptions as with datetime objects for any origin of the calendar and any forcing that reads the time, stops at the first state at or after the end time, ends for a positive time step, and TimedOffSwitch is 1 until its end time and 0 afterwards. Elapsed times, dates and numbers do not mix (TypeError), and saving with save_every raises TypeError as with dates.",
  "all models, initial states, origins of the calendar, time steps, end times and values of save_every","tests use numbers as times; unbounded runs",[f"{M}:BarotropicModel.run",f"{M}:BarotropicModel.leapfrog",f"{RH}:TimedOffSwitch"])
p("C146","Relaxation and the angular momentum of the flow",
  "In integrations with LinearRelaxation the angular momentum of the flow approaches that of the flow with the reference PV, whatever the initial flow and however it is advected, if the rate times the time step is below 1/3 (with or without diffusion towards the reference); without diffusion it stays away from it from 1/3 on, except for 3/2, where the filter of the leapfrog steps removes what grows.",
  "all grids, resolved initial states, references, rates, time steps and numbers of steps; times are numbers, dates or timedelta objects","a limit over infinitely many steps of a nonlinear integration",[f"{RH}:LinearRelaxation",f"{M}:BarotropicModel.leapfrog",f"{M}:BarotropicModel._pv_tendency_spectral"])
p("C147","Integrations with a forcing that is switched off",
  "An integration with the product of a forcing term and a TimedOffSwitch, in either order, is step by step the one with the term alone as long as no state is later than the end time of the switch; from the first step whose newer state is later than the end time on, all steps are those of the model without forcing.",
  "all terms that give fields, end times, initial states, non-negative time steps and numbers of steps; times are numbers, dates or timedelta objects","unbounded runs; tests evaluate the switch at few times and not in integrations",[f"{RH}:TimedOffSwitch",f"{RH}:_RHSProduct",f"{M}:BarotropicModel.leapfrog"])
with open(os.path.join(os.path.dirname(__file__), "..", "properties.jsonl"), "w") as f:
    for x in P: f.write(json.dumps(x, ensure_ascii=False)+"\n")
print(len(P))

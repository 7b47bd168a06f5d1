{"id": "C01", "title": "run() is memory-safe and terminates normally on every well-formed input", "statement": "For every object whose public inputs are determinate, have the documented sizes, satisfy 0<=xm<mpol, |xn|/nfp<=ntor, 0<=xm_nyq<=mpol_nyq, |xn_nyq|/nfp<=ntor_nyq, mpol>=2, mpol_nyq>=1, nfp>=1, mboz>=1, nboz>=0, every compute_surfs entry in [0,ns_in) and ntheta*nzeta and nfp*nzeta fit in an int, run() returns without throwing, without reading an indeterminate value, without any out-of-range array access, integer overflow or integer division by zero.", "quantifier": "all inputs (any number of modes, surfaces, any resolution, both symmetries), any floating point arithmetic", "why_tests_cant": "tests exercise a handful of equilibria and resolutions; out-of-range Eigen accesses are unchecked in Release builds so a test can pass while reading garbage", "anchors": ["src/_booz_xform/run.cpp:Booz_xform::run", "src/_booz_xform/init.cpp:Booz_xform::init", "src/_booz_xform/init_trig.cpp:Booz_xform::init_trig", "src/_booz_xform/surface_solve.cpp:Booz_xform::surface_solve", "src/_booz_xform/check_accuracy.cpp:Booz_xform::check_accuracy"]}
{"id": "C02", "title": "The output mode table enumerates every Boozer mode exactly once", "statement": "After run(), mnboz = (2*nboz+1)*(mboz-1)+nboz+1, xm_b and xn_b have mnboz entries, the pairs (xm_b[k], xn_b[k]/nfp) are pairwise distinct and are exactly the pairs (m,n) with 0<=m<=mboz-1, -nboz<=n<=nboz and n>=0 when m=0; every xn_b is a multiple of nfp; entry 0 is (0,0).", "quantifier": "all mboz>=1, nboz>=0, nfp>=1", "why_tests_cant": "holds for unboundedly many resolutions; off-by-one at any of them loses or duplicates a harmonic", "anchors": ["src/_booz_xform/init.cpp:Booz_xform::init"]}
{"id": "C03", "title": "mboz is the largest poloidal mode number kept in the results", "statement": "The documentation calls mboz the maximum poloidal mode number; a user relies on a mode with xm_b = mboz being present after run(). (Expected to be violated: the code keeps 0..mboz-1.)", "quantifier": "all resolutions", "why_tests_cant": "a test compares with one reference file of the same convention", "anchors": ["src/_booz_xform/booz_xform.hpp:mboz", "src/_booz_xform/init.cpp:Booz_xform::init"]}
{"id": "C04", "title": "run() never changes the user's inputs", "statement": "For every object on which run() succeeds, every input attribute (nfp, asym, mpol, ntor, mnmax, xm, xn, the Nyquist ones, ns_in, s_in, iota, all Fourier input arrays, fluxes, compute_surfs, mboz, nboz, verbose, aspect, toroidal_flux) is bit-for-bit what it was before.", "quantifier": "all inputs and all prior object states", "why_tests_cant": "needs every attribute for every input", "anchors": ["src/_booz_xform/run.cpp:Booz_xform::run"]}
{"id": "C05", "title": "run() is idempotent", "statement": "Calling run() a second time (or any number of times) on the same object yields bit-for-bit the same outputs as the first time.", "quantifier": "all well-formed inputs, any number of repetitions, any floating point arithmetic", "why_tests_cant": "accumulating loops (+=) make stale state possible for any input", "anchors": ["src/_booz_xform/run.cpp:Booz_xform::run", "src/_booz_xform/init.cpp:Booz_xform::init"]}
{"id": "C06", "title": "Results depend only on the inputs, not on the object's history", "statement": "Two objects with equal inputs produce bit-for-bit equal outputs (ns_b, s_b, mnboz, xm_b, xn_b, bmnc_b, rmnc_b, zmns_b, numns_b, gmnc_b, Boozer_G, Boozer_I, Boozer_G_all, Boozer_I_all, and the asymmetric ones when asym) from run(), whatever their private work arrays and previous outputs contained.", "quantifier": "all pairs of object states agreeing on the inputs", "why_tests_cant": "histories are unbounded", "anchors": ["src/_booz_xform/init.cpp:Booz_xform::init", "src/_booz_xform/surface_solve.cpp:Booz_xform::surface_solve"]}
{"id": "C07", "title": "Asymmetric outputs are empty after a stellarator-symmetric run", "statement": "The documentation says that for asym=false the arrays bmns_b, rmns_b, zmnc_b, numnc_b, gmns_b have size 0 x 0 after run(). (Expected to hold on fresh objects and to be violated after an earlier asymmetric run.)", "quantifier": "all object histories", "why_tests_cant": "a test uses one object per case", "anchors": ["src/_booz_xform/init.cpp:Booz_xform::init", "src/_booz_xform/booz_xform.hpp:bmns_b"]}
{"id": "C08", "title": "Surfaces are independent: each result column depends only on its own surface", "statement": "Column k of every 2-d output (and Boozer_G[k], Boozer_I[k], s_b[k]) depends only on the input columns at index compute_surfs[k], on iota[compute_surfs[k]] and on the global mode tables and resolution; hence selecting a subset, reordering or duplicating surfaces in compute_surfs selects, reorders or duplicates the columns bit-for-bit.", "quantifier": "all inputs, all compute_surfs lists", "why_tests_cant": "combinatorially many selections", "anchors": ["src/_booz_xform/surface_solve.cpp:Booz_xform::surface_solve", "src/_booz_xform/run.cpp:Booz_xform::run"]}
{"id": "C09", "title": "The OpenMP surface loop is race-free and its result is schedule independent", "statement": "For every assignment of surfaces to threads and every interleaving of the individual memory accesses of the threads, no two threads make conflicting accesses to the same memory cell, no schedule can reach an error, and every completed schedule leaves exactly the state the serial loop leaves, for all outputs, bit-for-bit.", "quantifier": "all inputs, all numbers of threads, all assignments of iterations, all interleavings", "why_tests_cant": "schedules cannot be enumerated by tests", "anchors": ["src/_booz_xform/run.cpp:Booz_xform::run", "src/_booz_xform/surface_solve.cpp:Booz_xform::surface_solve"]}
{"id": "C10", "title": "verbose only affects what is printed", "statement": "Two objects that differ only in verbose end run() in states that differ only in verbose.", "quantifier": "all inputs, all verbose values", "why_tests_cant": "all inputs", "anchors": ["src/_booz_xform/surface_solve.cpp:Booz_xform::surface_solve", "src/_booz_xform/check_accuracy.cpp:Booz_xform::check_accuracy", "src/_booz_xform/init.cpp:Booz_xform::init"]}
{"id": "C11", "title": "The trigonometric tables are exact in real arithmetic", "statement": "Entry (j,m) of the tables built by the three-term recurrence equals cos(m*theta_j), sin(m*theta_j), and entry (j,n) equals cos(n*nfp*zeta_j), sin(n*nfp*zeta_j), for every j, m<=mmax, n<=nmax, when arithmetic is exact.", "quantifier": "all grids, all mode numbers", "why_tests_cant": "unbounded mode numbers", "anchors": ["src/_booz_xform/init_trig.cpp:Booz_xform::init_trig"]}
{"id": "C12", "title": "Boozer angles are formed from nu, lambda and iota as documented", "statement": "At every grid point nu=(w-I*lambda)/(G+iota*I), theta_B=theta+lambda+iota*nu, zeta_B=zeta+nu, where lambda is the input Fourier series evaluated at that grid point, and w the Fourier series with coefficients bsubu/m (or -bsubv/n).", "quantifier": "all inputs, all grid points, real arithmetic", "why_tests_cant": "all inputs", "anchors": ["src/_booz_xform/surface_solve.cpp:Booz_xform::surface_solve"]}
{"id": "C13", "title": "The angles computed really are Boozer angles", "statement": "If the (B_theta, B_zeta) series satisfy the no-radial-current condition m*B_zeta,mn = -n*B_theta,mn and G+iota*I is not zero, then at every (theta,zeta) B_theta = I*d(theta_B)/dtheta + G*d(zeta_B)/dtheta and B_zeta = I*d(theta_B)/dzeta + G*d(zeta_B)/dzeta: the covariant components in the new angles are the surface functions I and G, with the nu the program computes.", "quantifier": "all inputs satisfying the physical condition, all angles", "why_tests_cant": "continuum of points and inputs", "anchors": ["src/_booz_xform/surface_solve.cpp:Booz_xform::surface_solve", "docs/source/theory.rst"]}
{"id": "C14", "title": "The quadrature weight is the Jacobian of the angle map", "statement": "The weight multiplying each quadrature point equals the determinant of d(theta_B,zeta_B)/d(theta,zeta) of the angle map, evaluated at that point.", "quantifier": "all inputs, all grid points", "why_tests_cant": "continuum of inputs", "anchors": ["src/_booz_xform/surface_solve.cpp:Booz_xform::surface_solve"]}
{"id": "C15", "title": "Each output coefficient is the documented quadrature of its physical quantity", "statement": "For every output mode (m,n) and selected surface, bmnc_b, rmnc_b, zmns_b, numns_b, gmnc_b (and for asym bmns_b, rmns_b, zmnc_b, numnc_b, gmns_b) equal the trapezoidal quadrature over the angle grid of |B|, R, Z, nu, sqrt(g)=(G+iota*I)/B^2 times cos or sin(m*theta_B-n*zeta_B) times the Jacobian, with normalisation 2/(ntheta*nzeta) (1/(ntheta*nzeta) for the (0,0) mode).", "quantifier": "all inputs, all modes, all surfaces, real arithmetic", "why_tests_cant": "all inputs", "anchors": ["src/_booz_xform/surface_solve.cpp:Booz_xform::surface_solve"]}
{"id": "C16", "title": "Input already in Boozer coordinates is reproduced exactly", "statement": "If lambda=0 and B_theta, B_zeta have only (0,0) harmonics, then the outputs reproduce the input |B|, R, Z harmonics at every represented mode, are zero at every other mode, and nu=0, provided input and output mode numbers cannot alias on the grid.", "quantifier": "all such inputs and resolutions, real arithmetic", "why_tests_cant": "all inputs and resolutions", "anchors": ["src/_booz_xform/surface_solve.cpp:Booz_xform::surface_solve"]}
{"id": "C17", "title": "Symmetric and asymmetric code paths agree on stellarator-symmetric input", "statement": "Running with asym=true and zero asymmetric coefficients gives, in real arithmetic, the same bmnc_b, rmnc_b, zmns_b, numns_b, gmnc_b as running with asym=false, and bmns_b, rmns_b, zmnc_b, numnc_b, gmns_b all zero.", "quantifier": "all stellarator-symmetric inputs", "why_tests_cant": "all inputs; the two paths use different grids and normalisations", "anchors": ["src/_booz_xform/init.cpp:Booz_xform::init", "src/_booz_xform/surface_solve.cpp:Booz_xform::surface_solve"]}
{"id": "C18", "title": "Scaling the magnetic field scales the results covariantly", "statement": "Multiplying |B|, B_theta and B_zeta harmonics by a nonzero constant c leaves rmnc_b, zmns_b, numns_b (and asymmetric counterparts) unchanged, multiplies bmnc_b, Boozer_G, Boozer_I by c and divides gmnc_b by c.", "quantifier": "all inputs, all nonzero c, real arithmetic", "why_tests_cant": "metamorphic over all inputs", "anchors": ["src/_booz_xform/surface_solve.cpp:Booz_xform::surface_solve"]}
{"id": "C19", "title": "R, Z and |B| outputs are linear in the corresponding inputs", "statement": "With the angle map data (lambda, B_theta, B_zeta, iota) fixed, rmnc_b/rmns_b are linear in (rmnc,rmns), zmns_b/zmnc_b linear in (zmns,zmnc), bmnc_b/bmns_b linear in (bmnc,bmns).", "quantifier": "all inputs and all linear combinations, real arithmetic", "why_tests_cant": "all inputs", "anchors": ["src/_booz_xform/surface_solve.cpp:Booz_xform::surface_solve"]}
{"id": "C20", "title": "Boozer_G and Boozer_I are the (0,0) harmonics of B_zeta and B_theta", "statement": "For every selected surface, if (0,0) occurs exactly once in the Nyquist mode list and is its first entry, then Boozer_G[k]=bsubvmnc(0,compute_surfs[k])=Boozer_G_all[compute_surfs[k]] and similarly for Boozer_I; the two sources disagree otherwise.", "quantifier": "all mode tables", "why_tests_cant": "all tables", "anchors": ["src/_booz_xform/surface_solve.cpp:Booz_xform::surface_solve", "src/_booz_xform/init.cpp:Booz_xform::init"]}
{"id": "C21", "title": "s_b lists the s values of the selected surfaces", "statement": "After run(), ns_b is the number of selected surfaces and s_b[k]=s_in[compute_surfs[k]] for every k.", "quantifier": "all selections", "why_tests_cant": "all selections", "anchors": ["src/_booz_xform/init.cpp:Booz_xform::init"]}
{"id": "C22", "title": "The order of the input modes is irrelevant", "statement": "Permuting the input mode lists (xm,xn together with the rows of the Fourier arrays; and the Nyquist lists, keeping the (0,0) entry first) leaves every output unchanged in real arithmetic.", "quantifier": "all permutations, all inputs", "why_tests_cant": "factorially many permutations", "anchors": ["src/_booz_xform/surface_solve.cpp:Booz_xform::surface_solve"]}
{"id": "C23", "title": "Zero-amplitude modes are irrelevant", "statement": "Appending modes with zero coefficients to the input lists (within the declared mpol/ntor bounds) leaves every output unchanged in real arithmetic.", "quantifier": "all inputs, any number of padded modes", "why_tests_cant": "all inputs", "anchors": ["src/_booz_xform/surface_solve.cpp:Booz_xform::surface_solve"]}
{"id": "C24", "title": "The accuracy check samples the four symmetry points with valid indices", "statement": "The four grid indices used by the accuracy check are in range and denote (theta,zeta) = (0,0), (pi,0), (0,pi/nfp), (pi,pi/nfp) (the last two collapse onto the first two when nzeta=1), so its assertions cannot fail, in both symmetries and at every resolution.", "quantifier": "all resolutions, both symmetries", "why_tests_cant": "all resolutions", "anchors": ["src/_booz_xform/check_accuracy.cpp:Booz_xform::check_accuracy"]}
{"id": "C25", "title": "The accuracy check reports the true reconstruction error", "statement": "The values it prints are |B| from the input series at the four points, |B| from the computed Boozer series at the Boozer angles of those points and their relative difference; in particular reconstructions that are exact are reported as zero error.", "quantifier": "all inputs", "why_tests_cant": "all inputs", "anchors": ["src/_booz_xform/check_accuracy.cpp:Booz_xform::check_accuracy"]}
{"id": "C26", "title": "init_from_vmec rejects exactly the ill-shaped inputs", "statement": "init_from_vmec throws if and only if ns<2, nfp<1, a mode list or Fourier array has the wrong size, a mode list does not start with (0,0) or does not end with n=nfp*ntor (nfp*ntor_nyq), a flux array has the wrong size, or an already present compute_surfs entry is outside [0,ns-2]; otherwise it returns normally (given determinate data, at least one mode of each kind, and ns>=3 or no m=1 mode).", "quantifier": "all argument shapes and values", "why_tests_cant": "all shapes", "anchors": ["src/_booz_xform/init_from_vmec.cpp:Booz_xform::init_from_vmec"]}
{"id": "C27", "title": "A rejected init_from_vmec leaves the object unchanged", "statement": "When init_from_vmec throws, the object is as before the call. (Expected to be violated: ns_in is assigned before validation.)", "quantifier": "all inputs that are rejected", "why_tests_cant": "all states", "anchors": ["src/_booz_xform/init_from_vmec.cpp:Booz_xform::init_from_vmec"]}
{"id": "C28", "title": "Every accepted init_from_vmec input is processed without out-of-bounds access", "statement": "Whenever validation succeeds, init_from_vmec performs no out-of-range access. (Expected to be violated for ns=2 with an m=1 mode, for verbose>1 with small arrays, and for mnmax=0; to hold for ns>=3, mnmax>=1, verbose<=1.)", "quantifier": "all accepted inputs", "why_tests_cant": "unchecked accesses do not fail tests", "anchors": ["src/_booz_xform/init_from_vmec.cpp:Booz_xform::init_from_vmec"]}
{"id": "C29", "title": "Half-grid quantities are shifted by exactly one surface", "statement": "After init_from_vmec, ns_in=ns-1, s_in[j]=(j+1/2)/(ns-1), iota[j]=iotas[j+1], and each half-grid Fourier array X satisfies X(k,j)=X0(k,j+1) bit-for-bit (asymmetric ones only if asym).", "quantifier": "all inputs", "why_tests_cant": "all inputs", "anchors": ["src/_booz_xform/init_from_vmec.cpp:Booz_xform::init_from_vmec"]}
{"id": "C30", "title": "Full-grid quantities are interpolated to the half grid exactly for the assumed radial forms", "statement": "R and Z harmonics with even m that are affine in s on the full-grid surfaces are reproduced exactly at every half-grid point by init_from_vmec. Those with odd m that are sqrt(s) times an affine function a+b*s are reproduced exactly at every half-grid point but the first; at the first one they are reproduced exactly for m=1, irrespective of the axis value, and for m>=3 (vanishing on axis) they come out too small by exactly a/2*sqrt(s), so are exact iff a=0.", "quantifier": "all harmonics, all ns>=3, real arithmetic", "why_tests_cant": "all radial profiles and sizes", "anchors": ["src/_booz_xform/init_from_vmec.cpp:Booz_xform::init_from_vmec"]}
{"id": "C31", "title": "Default resolution and surface selection", "statement": "After a successful init_from_vmec, mboz=6*mpol, nboz=max(2*ntor-1,0) and compute_surfs=[0,...,ns-2], whatever they were before.", "quantifier": "all inputs and prior states", "why_tests_cant": "all inputs", "anchors": ["src/_booz_xform/init_from_vmec.cpp:Booz_xform::init_from_vmec"]}
{"id": "C32", "title": "Fluxes are stored exactly when supplied", "statement": "If flux arrays are supplied, phip=-phip0/(2*pi) (of size ns), chi, pres, phi are stored and toroidal_flux=phi[ns-1]; if not, those arrays become empty and toroidal_flux is 0.", "quantifier": "all inputs", "why_tests_cant": "all inputs", "anchors": ["src/_booz_xform/init_from_vmec.cpp:Booz_xform::init_from_vmec", "src/_booz_xform/read_wout.cpp:Booz_xform::read_wout"]}
{"id": "C33", "title": "read_wout's result does not depend on the object's history", "statement": "Reading a given complete wout file, with the flag for flux functions, gives the same outcome and the same input attributes, aspect, toroidal_flux and flux functions whatever was done with the object before, provided the compute_surfs left from before lies in the range of the new file. It succeeds exactly then; without that proviso the outcome depends on the history (expected to be violated: a stale compute_surfs is validated against the new file).", "quantifier": "all histories and all files", "why_tests_cant": "all histories", "anchors": ["src/_booz_xform/init_from_vmec.cpp:Booz_xform::init_from_vmec", "src/_booz_xform/read_wout.cpp:Booz_xform::read_wout"]}
{"id": "C34", "title": "init_from_vmec followed by run is safe", "statement": "For every accepted input (ns>=3 or no m=1 mode) with mpol>=2, 0<=m<mpol, |n|<=nfp*ntor (Nyquist: 0<=m<=mpol_nyq, |n|<=nfp*ntor_nyq) and a default grid countable by an int, calling run() after init_from_vmec succeeds without any error, and its outputs have one column per half-grid surface.", "quantifier": "all inputs", "why_tests_cant": "all inputs", "anchors": ["src/_booz_xform/init_from_vmec.cpp:Booz_xform::init_from_vmec", "src/_booz_xform/run.cpp:Booz_xform::run"]}
{"id": "C35", "title": "write_boozmn followed by read_boozmn restores the results bit-for-bit", "statement": "For every object after run() with at least one surface, writing and reading back into any object restores nfp, mboz, nboz, mnboz, asym, ns_in, ns_b, compute_surfs, xm_b, xn_b, bmnc_b, rmnc_b, zmns_b, numns_b, gmnc_b (and the asymmetric arrays if asym), iota, Boozer_G_all, Boozer_I_all and, if there are flux functions, phi, chi, pres, phip except phip[0] (which becomes 0), and toroidal_flux as the last phi, bit-for-bit. s_b is restored if s_in is the half grid of VMEC; otherwise it is not (expected to be violated in that case).", "quantifier": "all objects, any floating point arithmetic with -(-x)=x", "why_tests_cant": "all objects", "anchors": ["src/_booz_xform/write_boozmn.cpp:Booz_xform::write_boozmn", "src/_booz_xform/read_boozmn.cpp:Booz_xform::read_boozmn"]}
{"id": "C36", "title": "Reading a boozmn file restores everything a boozmn file documents", "statement": "aspect, Boozer_G and Boozer_I are available after read_boozmn as they were when the file was written. (Expected to be violated.)", "quantifier": "all objects", "why_tests_cant": "all objects", "anchors": ["src/_booz_xform/read_boozmn.cpp:Booz_xform::read_boozmn"]}
{"id": "C37", "title": "Everything written to a boozmn file is determinate", "statement": "No indeterminate (uninitialised) value is ever written to a boozmn file. (Expected to be violated for beta_b when fluxes are present; to hold otherwise.)", "quantifier": "all objects after run()", "why_tests_cant": "indeterminate data is invisible to tests", "anchors": ["src/_booz_xform/write_boozmn.cpp:Booz_xform::write_boozmn"]}
{"id": "C38", "title": "write_boozmn does not modify the object", "statement": "write_boozmn leaves every attribute unchanged. (Expected to hold except phip[0], which is overwritten by 0 when fluxes are present.)", "quantifier": "all objects", "why_tests_cant": "all objects", "anchors": ["src/_booz_xform/write_boozmn.cpp:Booz_xform::write_boozmn"]}
{"id": "C39", "title": "A failed or interrupted write never destroys an existing file", "statement": "If write_boozmn fails or the process dies at any library call, a previously existing file of that name still holds its old contents. (Expected to be violated: creation clobbers first.) Other files are never touched; after a successful write the file is complete.", "quantifier": "all crash points, all objects, all file systems", "why_tests_cant": "crash points cannot be enumerated by tests", "anchors": ["src/_booz_xform/netcdf_writer.cpp:NetCDFWriter", "src/_booz_xform/write_boozmn.cpp:Booz_xform::write_boozmn"]}
{"id": "C40", "title": "The written file has the documented schema", "statement": "A successfully written file contains exactly the dimensions radius, mn_mode, mn_modes, comput_surfs, pack_rad and one for the version string, with the documented lengths, and exactly the documented variables with those dimensions and units; jlist=compute_surfs+2, the radial profiles have a leading 0, pmns_b=-numns_b, and all other values are those of the object.", "quantifier": "all objects after run()", "why_tests_cant": "all sizes", "anchors": ["src/_booz_xform/write_boozmn.cpp:Booz_xform::write_boozmn"]}
{"id": "C41", "title": "Pointers handed to the deferred writer are valid when dereferenced", "statement": "Every buffer registered with the NetCDF writer is alive and of the registered size at the time the file is written, for every object after run() with at least one surface and consistent flux functions, whatever library calls fail.", "quantifier": "all objects after run(), all failure points", "why_tests_cant": "dangling reads pass tests silently", "anchors": ["src/_booz_xform/write_boozmn.cpp:Booz_xform::write_boozmn", "src/_booz_xform/netcdf_writer.cpp:NetCDFWriter"]}
{"id": "C42", "title": "Editing compute_surfs between run() and write_boozmn", "statement": "Writing after compute_surfs was edited is detected or harmless. (Expected to be violated: emptying it throws only after the old file is gone, any other change of length reads outside a buffer, and a change of entries at the same length writes the new labels with the old surfaces' results.)", "quantifier": "all edits", "why_tests_cant": "all edits", "anchors": ["src/_booz_xform/write_boozmn.cpp:Booz_xform::write_boozmn"]}
{"id": "C43", "title": "Missing variables are reported, optional chi_b tolerated", "statement": "For files whose variables have the expected sizes: read_boozmn throws if any required variable or dimension, or the file itself, is missing, succeeds when only chi_b is missing, and never crashes, whatever library calls fail. When it succeeds all documented attributes hold the file's values. (Expected to be violated for chi: when chi_b is missing or unreadable, chi is indeterminate or that of an earlier file.)", "quantifier": "all files", "why_tests_cant": "all files", "anchors": ["src/_booz_xform/read_boozmn.cpp:Booz_xform::read_boozmn", "src/_booz_xform/netcdf_reader.cpp:NetCDFReader"]}
{"id": "C44", "title": "Readers never overflow their buffers", "statement": "Reading any NetCDF file, however malformed, never writes outside the destination arrays. (Expected to be violated: get() checks no sizes.)", "quantifier": "all files", "why_tests_cant": "all files", "anchors": ["src/_booz_xform/netcdf_reader.cpp:NetCDFReader"]}
{"id": "C45", "title": "File handles are released", "statement": "After read_wout, read_boozmn or write_boozmn returns or throws, no NetCDF handle opened by the call remains open. (Expected to hold on success and to be violated on exceptions.)", "quantifier": "all files, all failure points", "why_tests_cant": "all failure points", "anchors": ["src/_booz_xform/netcdf_reader.cpp:NetCDFReader", "src/_booz_xform/netcdf_writer.cpp:NetCDFWriter"]}
{"id": "C46", "title": "The driver's resolution is the requested one", "statement": "xbooz_xform run on a control file requesting mboz, nboz and surfaces uses those values and writes the results for them to boozmn_<ext>.nc. (Expected: the resolution used is the maximum of the default and the request, so a lower request is ignored; the surfaces are used in ascending order, all of them if none is given, and appear in jlist shifted by 2.)", "quantifier": "all control files and equilibria", "why_tests_cant": "All control files with any layout, all equilibria; a test uses a few files.", "anchors": ["src/_booz_xform/driver.cpp:driver"]}
{"id": "C47", "title": "The C++ driver and the Python command line treat a well-formed control file identically", "statement": "For every well-formed control file (white space separated: two plain decimal ints, an extension, then surface numbers up to the end or to a token that does not begin with a number) the C++ driver and the Python CLI extract the same mboz, nboz, extension and surface list, and end with the same outcome and the same files, in every environment. On malformed files, and in what they print, they are also the same. (The last sentence is expected to be violated.)", "quantifier": "all control files", "why_tests_cant": "All token sequences, layouts and environments.", "anchors": ["src/_booz_xform/driver.cpp:driver", "src/booz_xform/_cli.py:main"]}
{"id": "C48", "title": "Column-selection by jlist is validated before use", "statement": "Surface numbers outside the equilibrium's range are rejected with an error by driver, CLI and run(). (Expected to be violated: they lead to out-of-range memory access.)", "quantifier": "all selections", "why_tests_cant": "all selections", "anchors": ["src/_booz_xform/driver.cpp:driver", "src/booz_xform/_cli.py:main", "src/_booz_xform/run.cpp:Booz_xform::run"]}
{"id": "C49", "title": "surfplot and the accuracy check evaluate the same Boozer series", "statement": "The |B| plotted by surfplot at (theta,phi) is the sum over all output modes of bmnc_b cos(m theta - n phi) + bmns_b sin(m theta - n phi), the series whose values the accuracy check reconstructs; the grid covers one period in both angles, its opposite edges agree, a surface number out of range is an IndexError, and no plotting function changes the object.", "quantifier": "all results of run() and all boozmn files read, all points, all grid sizes", "why_tests_cant": "all points", "anchors": ["src/booz_xform/plots.py:surfplot", "src/_booz_xform/check_accuracy.cpp:Booz_xform::check_accuracy"]}
{"id": "C50", "title": "modeplot shows the nmodes largest modes", "statement": "The curves plotted by modeplot are those of nmodes different modes, in descending order of |bmnc_b| on the last surface, such that no omitted eligible mode is larger there; if there are fewer eligible modes an IndexError is raised. (Expected to be violated: the documentation speaks of the outermost surface, and of the largest modes also without stellarator symmetry.)", "quantifier": "all results, all nmodes, all options, all sorting algorithms", "why_tests_cant": "all results", "anchors": ["src/booz_xform/plots.py:modeplot"]}
{"id": "C51", "title": "init_from_vmec changes only the members it documents", "statement": "A successful init_from_vmec changes only ns_in, mboz, nboz, compute_surfs, toroidal_flux, s_in, iota, the flux arrays and the input Fourier arrays (the asymmetric ones only if asym); all other members, outputs of an earlier run() included, keep their values. It prints nothing at verbose=0, one summary line at verbose=1, and the documented further lines at verbose>1.", "quantifier": "all accepted inputs and all prior states", "why_tests_cant": "all members and all states", "anchors": ["src/_booz_xform/init_from_vmec.cpp:Booz_xform::init_from_vmec"]}
{"id": "C52", "title": "read_wout is safe on wout files with the expected sizes", "statement": "For wout files whose variables have the expected sizes, read_wout never has undefined behaviour, whatever variables are missing and whatever library calls fail, and throws if a variable is missing. (Expected to be violated for nfp=0, by which it divides before validating it.)", "quantifier": "all files with the expected sizes, all failure points, all objects", "why_tests_cant": "all files and failure points", "anchors": ["src/_booz_xform/read_wout.cpp:Booz_xform::read_wout"]}
{"id": "C53", "title": "Writing before run() is reported", "statement": "write_boozmn on an object on which run() has not been called throws. (Expected to be violated: the members it reads are uninitialised.)", "quantifier": "all objects before run()", "why_tests_cant": "uninitialised reads are invisible to tests", "anchors": ["src/_booz_xform/write_boozmn.cpp:Booz_xform::write_boozmn"]}
{"id": "C54", "title": "The driver is safe in every environment", "statement": "For every well-formed control file and every wout file with sane contents, complete or not, and whatever file-system calls fail or wherever the process is killed, xbooz_xform has no undefined behaviour; if it ends normally, boozmn_<ext>.nc is complete and holds the results; otherwise that file is as before or visibly torn, and no other file is touched; an incomplete wout file is reported and changes no file. A malformed control file is reported with an error. (The last sentence is expected to be violated by the C++ driver.)", "quantifier": "all control files, wout files, and failures of library calls", "why_tests_cant": "All failure points and all malformed files; indeterminate values are invisible to tests.", "anchors": ["src/_booz_xform/driver.cpp:driver"]}
{"id": "C55", "title": "symplot draws every requested mode once, in the colour of its kind", "statement": "symplot draws exactly the modes with |m| <= max_m and |n| <= max_n*nfp (without m=n=0 if B0=False), one curve each, in the colour of the kind of the mode (background, quasi-axisymmetric, mirror, helical, and with helical_detail n=+nfp*m and n=-nfp*m), modes of the removed helicity as zero. The legend has one entry per kind, and (expected to be violated) exactly for the kinds drawn; the default lower limit of the logarithmic axis is (expected to be violated) positive.", "quantifier": "all results, all options", "why_tests_cant": "all mode tables and all combinations of options", "anchors": ["src/booz_xform/plots.py:symplot"]}
{"id": "C56", "title": "wireplot draws coordinate curves of the flux surface", "statement": "The red curves of wireplot are curves of constant Boozer angle theta or zeta on the surface with cylindrical coordinates R, zeta-nu, Z given by the output series, the black curves those of the original angles given by the input series; where the output series reproduce R, Z and nu, the two describe the same point, and for input in Boozer coordinates the curves coincide. The surface drawn is displaced by 1/500 along the normal of the cross-section. (Expected to be violated: for refine=1 nothing is drawn, the surface without stellarator symmetry is displaced in another direction, the default surface is the last, not the outermost one.)", "quantifier": "all results, all grids, real arithmetic", "why_tests_cant": "all surfaces and grids; a picture is not compared by tests", "anchors": ["src/booz_xform/plots.py:wireplot", "src/_booz_xform/surface_solve.cpp:Booz_xform::surface_solve"]}
{"id": "C57", "title": "Plotting a file is plotting the object it was written from", "statement": "Each plotting function, given the name of a file to which an object was written, has the same outcome as given the object. (Expected to be violated by wireplot with orig=True, for which the file does not have the data.)", "quantifier": "all objects after run() on the VMEC half grid, all files, all options", "why_tests_cant": "all objects and options", "anchors": ["src/booz_xform/plots.py:handle_b_input", "src/_booz_xform/write_boozmn.cpp:Booz_xform::write_boozmn", "src/_booz_xform/read_boozmn.cpp:Booz_xform::read_boozmn"]}
{"id": "C58", "title": "The output converges to the spectrum in Boozer angles", "statement": "As mboz and nboz grow, every output coefficient (|B|, R, Z, nu, sqrt(g), cosine and sine) converges to a limit faster than any power of the number of grid points. The limit is the Fourier coefficient in the Boozer angles: whenever the quantity is within eps of a finite Fourier series in the Boozer angles, the limit is within 2 eps of that series' coefficient (where the Jacobian of the angle map is nonnegative; with its bound B as a factor in general). For axisymmetric input the toroidal resolution does not matter. Boozer_I and Boozer_G do not depend on the resolution.", "quantifier": "all inputs with nfp | n and G + iota I /= 0, all modes, all resolutions (no bound), real arithmetic; |B| bounded away from 0 for sqrt(g)", "why_tests_cant": "a limit over all resolutions, for all inputs", "anchors": ["src/_booz_xform/surface_solve.cpp:Booz_xform::surface_solve", "src/_booz_xform/init.cpp:Booz_xform::init", "docs/source/theory.rst"]}
{"id": "C59", "title": "Documented use of the Python interface never has undefined behaviour", "statement": "A Python program that creates an object, fills in input data (read_wout, init_from_vmec or attributes), runs, writes, reads back, changes attributes, catches exceptions and starts over, in any order that the documentation allows, never has undefined behaviour, whatever library calls fail and whatever other programs do to the files in between. Each run() it makes succeeds and gives what the same inputs give in any other object; each file it writes is one that read_boozmn can read. (Expected to be violated after a failed read_boozmn, and by run() after read_boozmn.)", "quantifier": "all programs (adaptive, of any length), all file systems, all failure points, any arithmetic", "why_tests_cant": "all sequences of calls, branching on the results; undefined behaviour is invisible to tests", "anchors": ["src/_booz_xform/bindings.cpp:PYBIND11_MODULE", "src/_booz_xform/read_wout.cpp:Booz_xform::read_wout", "src/_booz_xform/init_from_vmec.cpp:Booz_xform::init_from_vmec", "src/_booz_xform/run.cpp:Booz_xform::run", "src/_booz_xform/write_boozmn.cpp:Booz_xform::write_boozmn", "src/_booz_xform/read_boozmn.cpp:Booz_xform::read_boozmn"]}
{"id": "C60", "title": "Reading a boozmn file and writing it again copies it", "statement": "For every complete boozmn file, read_boozmn followed by write_boozmn to another name gives a file with the same numbers, modes, surface labels, Fourier coefficients and profiles (the first radial entry of the half-grid profiles is 0), and leaves all other files alone. (Expected to be violated for aspect_b and beta_b.)", "quantifier": "all complete boozmn files with sizes allowed by NetCDF, all prior objects, any arithmetic with -(-x)=x", "why_tests_cant": "all files", "anchors": ["src/_booz_xform/read_boozmn.cpp:Booz_xform::read_boozmn", "src/_booz_xform/write_boozmn.cpp:Booz_xform::write_boozmn"]}
{"id": "C61", "title": "aspect and toroidal_flux are passed on to the output file", "statement": "As documented, the values of aspect and toroidal_flux reach the output file: aspect_b is aspect, and an object that reads the file has the toroidal_flux of the one it was written from. (Expected to be violated: toroidal_flux is not written.)", "quantifier": "all objects after run(), any arithmetic with -(-x)=x", "why_tests_cant": "all objects", "anchors": ["src/_booz_xform/bindings.cpp:PYBIND11_MODULE", "src/_booz_xform/write_boozmn.cpp:Booz_xform::write_boozmn"]}
{"id": "C62", "title": "Arrays obtained from attributes in Python stay usable and keep what they show", "statement": "A NumPy array obtained from an attribute of a Booz_xform object can be used as long as every later call (assignment, run(), init_from_vmec, reading and writing files, whether it returns or throws) leaves the number of elements of that attribute as it is, and then shows the present values; run() does not change arrays obtained from input attributes. Later calls do not invalidate arrays obtained from the results, and do not change what they show. (The last sentence is expected to be violated: after another run() they show the new results if there are as many modes and surfaces as before, and refer to freed memory if the number of elements is different.)", "quantifier": "all sequences of calls on the object, all attributes and elements, all resolutions and selections of surfaces", "why_tests_cant": "Reading freed memory usually returns plausible values; comparing an array with itself always succeeds.", "anchors": ["src/_booz_xform/bindings.cpp:PYBIND11_MODULE", "src/_booz_xform/init.cpp:Booz_xform::init"]}
{"id": "C63", "title": "The documentation of the inputs says what is needed", "statement": "Arguments of init_from_vmec that are only for non-stellarator-symmetric configurations have no effect when asym is false. s_in affects nothing but s_b; as documented it is not needed for the transformation, and lmns and lmnc have the documented size mnmax_nyq x ns_in. (The last sentence is expected to be violated: run() without s_in reads beyond the array, and lambda is used with mnmax rows.)", "quantifier": "all objects, all arguments, any arithmetic", "why_tests_cant": "The results do not show which inputs were read.", "anchors": ["src/_booz_xform/bindings.cpp:PYBIND11_MODULE", "src/_booz_xform/init_from_vmec.cpp:Booz_xform::init_from_vmec", "src/_booz_xform/surface_solve.cpp:Booz_xform::surface_solve"]}
{"id": "C64", "title": "The origin of the input angles only turns the phases of the output", "statement": "Describing the same surfaces with angles theta - dt, zeta - dz, where dt and dz are whole steps of the grid, leaves Boozer_I and Boozer_G unchanged and turns each pair of cosine and sine coefficients of the output by m dt - n dz; for stellarator-symmetric input, half a turn or half a field period multiplies each coefficient by the sign cos(m dt - n dz).", "quantifier": "all inputs, all modes, all shifts by whole grid steps, real arithmetic", "why_tests_cant": "Needs all inputs and shifts; no reference is available for the shifted data.", "anchors": ["src/_booz_xform/surface_solve.cpp:Booz_xform::surface_solve"]}
{"id": "C65", "title": "The constant in lambda only turns the phases of the output", "statement": "Adding a constant to the m=n=0 cosine coefficient of lambda, that is, another origin of the straight-field-line angle, leaves Boozer_I and Boozer_G unchanged and turns each pair of output coefficients of |B|, R, Z and the Jacobian by m dT - n dZ, where dT = c G/(G + iota I) and dZ = - c I/(G + iota I).", "quantifier": "all non-stellarator-symmetric inputs with G + iota I not 0, all modes and constants, real arithmetic", "why_tests_cant": "Needs all inputs and constants.", "anchors": ["src/_booz_xform/surface_solve.cpp:Booz_xform::surface_solve"]}
{"id": "C66", "title": "Reversing both angles changes the sign of the asymmetric output", "statement": "If the coefficients of the parity that stellarator-symmetric configurations do not have change sign in the input (both angles and Z are reversed), the output changes in the same way: bmnc_b, rmnc_b, zmns_b, numns_b, gmnc_b, Boozer_I and Boozer_G stay, bmns_b, rmns_b, zmnc_b, numnc_b and gmns_b change sign.", "quantifier": "all inputs, all modes, real arithmetic", "why_tests_cant": "Needs all inputs.", "anchors": ["src/_booz_xform/surface_solve.cpp:Booz_xform::surface_solve"]}
{"id": "C67", "title": "The mirror image of a configuration has the mirrored output", "statement": "If the toroidal angle is reversed (n, iota and B_zeta change sign), Boozer_I stays, Boozer_G changes sign, and the coefficient of the output for (m, n) is that of the original for (m, -n), with the sign changed for nu and the Jacobian; for m = 0 it is that of the original for (0, n) up to the sign that follows.", "quantifier": "all inputs, all modes, real arithmetic", "why_tests_cant": "Needs all inputs; the mode table has no (0, -n).", "anchors": ["src/_booz_xform/surface_solve.cpp:Booz_xform::surface_solve", "src/_booz_xform/init.cpp:Booz_xform::init"]}
{"id": "C68", "title": "Rounding errors in the results are proportional to the accuracy of the arithmetic", "statement": "For given inputs with G + iota I nonzero on the selected surfaces (and |B| nonzero on the grid, for the Jacobian), there is a constant C such that run() in any arithmetic that is accurate to e, with e small enough and no overflow below some M, gives finite results that differ from the exact ones by at most C e; in particular with p-bit floating point numbers by at most C / 2^p.", "quantifier": "all inputs, all accurate arithmetics and floating point formats, all output coefficients", "why_tests_cant": "A test runs in one arithmetic; the exact result is not available to compare with.", "anchors": ["src/_booz_xform/surface_solve.cpp:Booz_xform::surface_solve", "src/_booz_xform/init_trig.cpp:Booz_xform::init_trig", "src/_booz_xform/vector_matrix.hpp:boozfloat"]}
{"id": "C69", "title": "Symmetries of the input are symmetries of the output", "statement": "If the input surface is unchanged by a shift of the angles by whole steps of the grid, every output coefficient whose mode is changed by that shift is zero. In particular an axisymmetric input gives n = 0 modes only, whatever nboz; a helically symmetric input (all modes with m N nfp = n M) gives modes of the same helicity only, apart from modes that the grid cannot distinguish from these.", "quantifier": "all inputs, all shifts, all modes, all output quantities, real arithmetic", "why_tests_cant": "Needs all inputs; a test sees rounding errors instead of zeros.", "anchors": ["src/_booz_xform/surface_solve.cpp:Booz_xform::surface_solve", "src/_booz_xform/init.cpp:Booz_xform::init"]}
{"id": "C70", "title": "The number of field periods is a matter of representation", "statement": "An equilibrium with nfp = N nf periods, given as one with nf periods (same modes, nboz such that the toroidal grid step is the same), has the same Boozer_I and Boozer_G and the same coefficient for each (m, n); the additional modes, whose n is not a multiple of nfp, are zero. For axisymmetric surfaces the n = 0 coefficients do not depend on nboz and nfp at all.", "quantifier": "all inputs, all N and nf, all modes, real arithmetic", "why_tests_cant": "Relates runs with different parameters for all inputs.", "anchors": ["src/_booz_xform/surface_solve.cpp:Booz_xform::surface_solve", "src/_booz_xform/init.cpp:Booz_xform::init", "src/_booz_xform/init_trig.cpp:Booz_xform::init_trig"]}
{"id": "C71", "title": "With enough resolution and precision the output is as close as wanted to the spectrum in Boozer angles", "statement": "Each output coefficient computed with p-bit floating point numbers at resolution mboz, nboz differs from the exact coefficient of the documented quantity in the Boozer angles by at most C_q (1/ntheta^q + 1/nzeta^q) + D / 2^p, for every q, where C_q does not depend on the resolution or the precision and D not on the precision.", "quantifier": "all inputs with G + iota I and |B| nonzero, all output coefficients, all resolutions, all orders q, all precisions that are large enough for the input", "why_tests_cant": "The exact coefficient is a limit that no run gives.", "anchors": ["src/_booz_xform/surface_solve.cpp:Booz_xform::surface_solve", "src/_booz_xform/init.cpp:Booz_xform::init", "src/_booz_xform/init_trig.cpp:Booz_xform::init_trig"]}
{"id": "C72", "title": "Each call changes only what it is documented to change", "statement": "Whether it returns or throws, a call leaves every attribute unchanged that is not among those it is documented to set: an assignment changes that attribute only and stores exactly the value, read_wout and init_from_vmec change inputs only, run changes outputs only, write_boozmn changes phip only. The outputs therefore only change by run, by read_boozmn and with a new object; they cannot be assigned to, and values of the wrong type are rejected. (Expected: read_boozmn also replaces Boozer_G and Boozer_I; it does not.)", "quantifier": "all objects in any state, all calls and arguments, all file contents, all sequences of calls including failing ones", "why_tests_cant": "Tests compare a few attributes after a few calls; the claim is about all attributes, all states and all failures.", "anchors": ["src/_booz_xform/bindings.cpp:PYBIND11_MODULE", "src/_booz_xform/booz_xform.cpp:Booz_xform::run", "src/_booz_xform/init_from_vmec.cpp:Booz_xform::init_from_vmec", "src/_booz_xform/read_wout.cpp:Booz_xform::read_wout", "src/_booz_xform/read_boozmn.cpp:Booz_xform::read_boozmn", "src/_booz_xform/write_boozmn.cpp:Booz_xform::write_boozmn"]}
{"id": "C73", "title": "A reading that succeeds has read everything", "statement": "If read_wout or read_boozmn returns, whatever the file contains and whatever the library did, then the file exists, every variable that is needed (those of the fluxes if asked for, the asymmetric ones if the file says it is asymmetric) is present, is not text, and has only values that fit an int where ints are read; no library call failed (read_boozmn: at most one, for chi_b, whose failure is ignored); asym is what the file says; all files are unchanged and the file is closed.", "quantifier": "all files including malformed ones, all objects, all failures of the library", "why_tests_cant": "Needs all malformed files and all failing library calls.", "anchors": ["src/_booz_xform/read_wout.cpp:Booz_xform::read_wout", "src/_booz_xform/read_boozmn.cpp:Booz_xform::read_boozmn", "src/_booz_xform/netcdf_reader.cpp:NetCDFReader::get"]}
{"id": "C74", "title": "The results depend continuously on the inputs", "statement": "In exact arithmetic, for any valid inputs with G + iota I nonzero on the requested surfaces (and |B| nonzero on the grid for the Jacobian), every output is locally Lipschitz in all floating-point inputs: there are C and e0 > 0 such that any change of all the inputs by at most e <= e0 changes no output by more than C e.", "quantifier": "all valid inputs, all outputs, all perturbations of all the inputs at once", "why_tests_cant": "Quantifies over all perturbations; a test sees a few, and cannot tell a steep change from a jump.", "anchors": ["src/_booz_xform/booz_xform.cpp:Booz_xform::run", "src/_booz_xform/surface_solve.cpp:Booz_xform::surface_solve"]}
{"id": "C75", "title": "What a reading stores, whatever the file", "statement": "If read_boozmn returns, whatever the file contains (sizes of variables included) and whatever the library did, every attribute array has the shape the file announces, and every number of a variable is in the place of the array that belongs to it (jlist minus 2, pmns_b and pmnc_b negated; iota, Boozer_G_all and Boozer_I_all without the first element of iota_b, bvco_b and buco_b); s_b is (compute_surfs + 1/2)/(ns_b - 1) with the ns_b of the file; asymmetric arrays are empty if the file is symmetric. If read_wout returns, the same holds of the arguments with which it has called init_from_vmec and of the attributes it sets itself; mpol_nyq and ntor_nyq are the last entries of xm_nyq and of xn_nyq over nfp. (Expected: the arrays hold the numbers of the file and nothing else. Violated: the readers do not notice variables that are too short, what is missing is uninitialised or comes from the file read before.)", "quantifier": "all files including malformed ones, all objects, all failures of the library", "why_tests_cant": "Needs all malformed files; tests read well-formed files only.", "anchors": ["src/_booz_xform/read_boozmn.cpp:Booz_xform::read_boozmn", "src/_booz_xform/read_wout.cpp:Booz_xform::read_wout", "src/_booz_xform/netcdf_reader.cpp:NetCDFReader::get"]}
{"id": "C76", "title": "IEEE floating point: finite, accurate results", "statement": "In IEEE 754 binary arithmetic of any precision, with a libm accurate to e, for valid inputs with G + iota I nonzero on the requested surfaces (and |B| nonzero on the grid for the Jacobian), every output is finite and within C e of the exact one for all small enough e and large enough exponent ranges; C depends on the exact inputs only. Comparisons of finite numbers are exact; ints (mode numbers, which files store as numbers) are represented exactly and converted back to themselves if there are at least 32 bits; a file written and read back restores the results bit for bit. (Expected: if run() returns without complaint the results are numbers. Violated: if G + iota I = 0 all coefficients are NaN and run() returns normally.)", "quantifier": "all precisions and exponent ranges, all accurate libms, all valid inputs, all outputs", "why_tests_cant": "Tests use one format, one libm and a few equilibria, none of them with G + iota I = 0.", "anchors": ["src/_booz_xform/vector_matrix.hpp:boozfloat", "src/_booz_xform/surface_solve.cpp:Booz_xform::surface_solve", "src/_booz_xform/init_trig.cpp:Booz_xform::init_trig"]}
{"id": "C77", "title": "Computable bounds on the rounding errors of a run", "statement": "The rounding errors of a run can be bounded by running the same program in an arithmetic of integers: a number there holds an interval for the exact value and a bound on the distance of the floating point value from it, or says that nothing is known. For all valid inputs, all accurate arithmetics (IEEE double precision among them) and all parameters of the integer arithmetic: wherever the integer run gives numbers, the exact result lies in the interval, the floating point result is finite, and the two differ by at most the bound. For a tokamak with two surfaces in double precision all results are within 2^-41 of the exact ones.", "quantifier": "all valid inputs, all accurate arithmetics, all roundings of the inputs, all precisions and parameters of the integer arithmetic, all outputs", "why_tests_cant": "Tests compare two floating point programs with each other; the exact results are not available to them.", "anchors": ["src/_booz_xform/surface_solve.cpp:Booz_xform::surface_solve", "src/_booz_xform/init_trig.cpp:Booz_xform::init_trig", "src/_booz_xform/run.cpp:Booz_xform::run"]}
{"id": "C78", "title": "Fused multiply-add: the compiler's choices do not matter much", "statement": "The compiler may evaluate any product and a sum or difference that uses it with one rounding (fused multiply-add), at some places and not at others, even for the same product. In IEEE 754 arithmetic of any precision with a libm accurate to e, for valid inputs with G + iota I nonzero on the requested surfaces (and |B| nonzero on the grid for the Jacobian), whatever it chooses every output is finite and within C e of the exact one, for all small enough e and large enough exponent ranges; C depends on the exact inputs only. The bounds of C77 hold too, whatever it chooses. Without any fused operation the results are those of C76, bit for bit.", "quantifier": "all choices of the compiler (each use of each product), all precisions and exponent ranges, all accurate libms, all valid inputs, all outputs", "why_tests_cant": "Tests see the binaries of one compiler on one processor.", "anchors": ["src/_booz_xform/surface_solve.cpp:Booz_xform::surface_solve", "src/_booz_xform/init_trig.cpp:Booz_xform::init_trig", "CMakeLists.txt"]}
{"id": "C79", "title": "What a writing writes and what comes back, whatever the object", "statement": "If write_boozmn returns, whatever the object contains and whatever the library did, the file has the dimensions, scalars, modes, profiles and matrices of the object at that moment, each in the variable and with the dimensions that belong to it (compute_surfs plus 2, numns_b and numnc_b negated, a zero before the radial profiles, the first phip set to zero; zeros for the fluxes if there is no phip; no asymmetric variables if asym is false). An object that reads the file has these numbers again, with the phases negated twice. (Expected too: the results in the file belong to the equilibrium in it. Violated: after read_wout of another equilibrium, the old results are written with the new profiles; if the sizes differ, write_boozmn reads beyond the end of arrays.)", "quantifier": "all objects in any state, all file systems, all failures of the library", "why_tests_cant": "Tests write objects that have just been transformed; the claim is about every object, also one that was loaded, edited or half rebuilt.", "anchors": ["src/_booz_xform/write_boozmn.cpp:Booz_xform::write_boozmn", "src/_booz_xform/netcdf_writer.cpp:NetCDFWriter::write_and_close", "src/_booz_xform/read_boozmn.cpp:Booz_xform::read_boozmn"]}
{"id": "C80", "title": "The shape of every array is always consistent", "statement": "After any sequence of calls from Python or C++ on a new object (assignments, init_from_vmec, read_wout, read_boozmn, run, write_boozmn), also calls that end in an exception at any point, every array attribute has as many elements as its rows and columns say, and every vector has one column.", "quantifier": "all sequences of calls with all arguments, all files, all failures of the library at any point", "why_tests_cant": "Needs all interleavings of failing and succeeding calls on all files.", "anchors": ["src/_booz_xform/booz_xform.hpp:Booz_xform", "src/_booz_xform/bindings.cpp:PYBIND11_MODULE", "src/_booz_xform/netcdf_reader.cpp:NetCDFReader::get"]}
{"id": "C81", "title": "No file with a variable that is too long is read", "statement": "If read_boozmn or read_wout returns, no variable it read had more elements than the array it was read into (1 for scalars, the numbers of modes, radial points and surfaces, or their products, as the file states them). Conversely, if everything that is to be read is present and convertible and the library reports no failure of its own, then one variable that is too long, whichever it is, makes the behaviour of the whole call undefined: no check and no exception precedes the overflow. Read_boozmn of a file in which everything is present reports no error at all.", "quantifier": "all files, all objects in any state; the first part for any behaviour of the library", "why_tests_cant": "Tests can try single oversized variables only; the claim is about every variable and every size in every file.", "anchors": ["src/_booz_xform/netcdf_reader.cpp:NetCDFReader::get", "src/_booz_xform/read_boozmn.cpp:Booz_xform::read_boozmn", "src/_booz_xform/read_wout.cpp:Booz_xform::read_wout"]}
{"id": "C82", "title": "Every documented requirement of run() is needed", "statement": "If run() on an object with at least one selected surface returns (and mboz and nboz are not both negative), then all members it uses were set, mboz >= 1, nboz >= 0, nfp is not 0, mpol >= 2, mpol_nyq >= 1, ntor, ntor_nyq >= 0, the sizes derived from mboz, nboz and nfp fit an int, and for every selected surface s_in, iota and the coefficients of every mode exist and were set, with 0 <= m < mpol, |n|/nfp (integer division) <= ntor (and likewise for the Nyquist modes). For inputs with arrays of the documented shapes, run() returns if and only if the documented requirements hold, and is undefined behaviour if and only if they do not. No value of mboz and nboz outside their documented ranges is accepted.", "quantifier": "all objects, all input data, any arithmetic", "why_tests_cant": "Shows for every object that fails a requirement that run() does not return; tests can only sample such objects, and undefined behaviour need not show in them.", "anchors": ["src/_booz_xform/init.cpp:Booz_xform::init", "src/_booz_xform/init_trig.cpp:Booz_xform::init_trig", "src/_booz_xform/surface_solve.cpp:Booz_xform::surface_solve", "src/_booz_xform/run.cpp:Booz_xform::run"]}
{"id": "C83", "title": "Writing needs a selected surface, and reading a stored one", "statement": "If write_boozmn returns, then ns_in and mnboz were set, mnboz >= 1, at least one surface is selected, and all of these fit a NetCDF dimension. If read_boozmn returns, then the object has at least one mode, one surface and one radial point, with the sizes the file declares. After run() with no surface selected, write_boozmn throws 'NetCDF: NC_UNLIMITED size already in use' (length 0 means an unlimited dimension, and a classic file has only one), leaves the object as it was, the handle open and a torn file in place of any file with that name; after run(), with a library that does not fail, the file is written exactly if a surface is selected. Whatever run() has computed can be written.", "quantifier": "all objects, all files, all names and versions; any behaviour of the NetCDF library for what a return implies", "why_tests_cant": "Shows for every object, file and pattern of library failures that a return implies these sizes; tests can only sample such objects, and reading into an empty buffer is undefined behaviour that need not show.", "anchors": ["src/_booz_xform/write_boozmn.cpp:Booz_xform::write_boozmn", "src/_booz_xform/read_boozmn.cpp:Booz_xform::read_boozmn", "src/_booz_xform/netcdf_writer.cpp:NetCDFWriter::dim", "src/_booz_xform/run.cpp:Booz_xform::run"]}
{"id": "C84", "title": "Exactly which objects write_boozmn writes", "statement": "With a NetCDF library that does not fail and lengths that are legal NetCDF dimensions, write_boozmn returns exactly if everything it reads is there: ns_b is the number of selected surfaces, which are all set; xm_b and xn_b have at least mnboz elements; iota, Boozer_I_all and Boozer_G_all have at least ns_in elements that are set; if phip is not empty, then phip, chi, pres and phi have at least ns_in+1 elements; the spectra have at least ns_b*mnboz elements (the other five too if asym), and those of nu are set. Otherwise it is undefined behaviour; it never throws. With illegal lengths it does not return.", "quantifier": "all well-formed objects, all objects any calls on a new one lead to; all names and versions", "why_tests_cant": "An equivalence over every object: tests cannot observe that an array shorter than the file expects is read beyond its end, and cannot cover every combination of sizes.", "anchors": ["src/_booz_xform/write_boozmn.cpp:Booz_xform::write_boozmn", "src/_booz_xform/netcdf_writer.cpp:NetCDFWriter::write_and_close", "src/_booz_xform/netcdf_writer.cpp:NetCDFWriter::put"]}
{"id": "C85", "title": "What read_boozmn has read can be written", "statement": "After read_boozmn of any file returned, on an object with any history, write_boozmn with a library that does not fail returns exactly if ns_in, mnboz and the number of surfaces are legal NetCDF lengths and the surface numbers plus 2 are ints; it does not depend on anything else in the file or on what the object was used for before. Every element of compute_surfs, iota, Boozer_I_all, Boozer_G_all and numns_b (numnc_b if asym) is then set. Every number that is written has been set.", "quantifier": "all histories of calls on a new object, all files (also with variables that are too short), all names and versions", "why_tests_cant": "The history and the contents of the file are arbitrary; elements that are never set are uninitialised memory, which a test reads as some number.", "anchors": ["src/_booz_xform/read_boozmn.cpp:Booz_xform::read_boozmn", "src/_booz_xform/write_boozmn.cpp:Booz_xform::write_boozmn"]}
{"id": "C86", "title": "What write_boozmn has written can be read", "statement": "In a file that write_boozmn has written, whatever the object contained, every variable and dimension read_boozmn needs is present with a type it can read, and no variable has more elements than the array it is read into. With a library that does not fail read_boozmn never throws on such a file, and it returns if every number that was written had been set and the surface numbers and these plus 2 are ints.", "quantifier": "all objects with arrays of consistent size, all names and versions, any reading object", "why_tests_cant": "The object is arbitrary (any number of modes and surfaces, symmetric or not, with or without fluxes, arrays longer than needed, any contents), and reader and writer are separate code that must agree on every name, type and length.", "anchors": ["src/_booz_xform/write_boozmn.cpp:Booz_xform::write_boozmn", "src/_booz_xform/read_boozmn.cpp:Booz_xform::read_boozmn"]}

# Formal model of booz_xform in Rocq

`/repo` (C++ part of hiddenSymmetries/booz_xform, plus the Python CLI and plotting) was read as text only; nothing
was built or run. All Rocq sources are in `rocq/theories`, built with Coq 8.16.1.

## 1. Architecture

* **Arithmetic is a parameter.** `Scalar.v` has a record of floating point operations (`+ - * /`, negation,
  int->double, literals, cos, sin, sqrt, abs, `<`, double->int). The model is written once over an arbitrary `Scalar`,
  keeping the C++ operation order and association. Theorems about structure (memory safety, schedules, history,
  surfaces, files, idempotence) hold for *every* `Scalar`, so in particular for IEEE doubles with any libm. Theorems
  about mathematics (trigonometric tables, quadrature, Jacobian, Boozer equations) are about the real instance.
* **Programs are data.** `Prog.v`: a C++ member function is a term of a free monad `prog` whose effects are the reads
  and writes of the object's members (element-wise for arrays), printing, `throw` and undefined behaviour. The same term
  has a sequential semantics (`run`) and an interleaving semantics (`Par.v`), so the OpenMP loop is the same text
  as the serial one.
* **Undefined behaviour is an outcome.** `m(i,j)` requires `0<=i<rows` and `0<=j<cols` (Eigen's documented
  precondition, an assertion that release builds compile out); `v[i]` requires `0<=i<size`. Breaking one of these, the
  use of an indeterminate cell or of an uninitialised int/bool member, int overflow, division by zero and a
  negative size all give `UB`. "Safe" theorems prove that `UB` is not an outcome, so they cover both builds:
  no Eigen assertion can fire, and no memory outside the arrays is touched.
* **Object** = total maps from the member names to optional ints, bools, floats, int arrays, double arrays.
* **Files**: `Nc.v` models NetCDF classic files (dimensions, typed variables, attributes), the `nc_*` calls the code
  makes, a file system, the table of open handles, and an oracle (`wQ`) that can make any library call fail or be the
  moment at which the process is killed. `NcModel.v` has the reader and writer classes, read_wout, read_boozmn and
  write_boozmn on top, as programs of type `io` (`IOk`, `IThrow`, `IUB`, `IDie`). The writer keeps pointers
  until it writes: a registered pointer names a member or a local of write_boozmn, and is resolved at the end, in the
  environment that is then alive; reading more elements than the buffer has is `IUB`.

## 2. How each property is treated

| id | model | proof idea |
|----|-------|-----------|
| C01 | `run` program | Hoare-style total correctness (`wp`) of init, surface_solve, check_accuracy under `repr`/`ok_inp` |
| C02 | `init` mode loop | loop invariant: table = explicit enumeration; NoDup/membership of the enumeration |
| C03 | same | `_refuted`: largest m is mboz-1 for every input |
| C04-C06, C08, C10 | `run` program | consequence of functional correctness: outputs are a function of the inputs only |
| C07 | `run` program | proved for fresh objects, `_refuted` after an asymmetric run |
| C09 | interleaving semantics | confinement of each iteration to its own cells + general non-interference theorem |
| C11 | init_trig | induction on m with the angle addition formulas |
| C12, C14, C15 | surface_solve over R | functional correctness, then sums and derivatives |
| C13 | specification-level | derivative of finite Fourier sums |
| C16 | surface_solve over R | discrete orthogonality (geometric sums) |
| C17 | surface_solve over R | reflection j -> -j of the full grid onto the half grid |
| C18, C19, C22, C23 | surface_solve over R | algebra of finite sums |
| C20, C21 | init, surface_solve | functional correctness; refutation by witness for duplicated (0,0) |
| C24, C25 | check_accuracy | index arithmetic; emitted event equals the specified values |
| C26-C32, C34 | init_from_vmec | wp; field-by-field characterisation; interpolation over R by `field` |
| C33, C52 | read_wout | execution on an arbitrary wout file (`tri`: Hoare triples with error and death postconditions), then C26-C32 |
| C35-C45, C53 | NetCDF model, reader, writer | `tri` of read_boozmn on an arbitrary file and of write_boozmn on an arbitrary object, for any oracle; concrete worlds by computation for the refutations |
| C46, C47, C54 | driver, CLI | model of `operator>>` and of Python `split`/`int`; induction on tokens; `tri` of the driver in any environment; C47 by simulation up to what is printed |
| C48 | run on any object | every normal end of init has read s_in at all selected surfaces (`forces`); driver and CLI on top |
| C49, C50, C55-C57 | plots.py | every function computes the data it hands to matplotlib or plotly; execution on any object that holds results (`shows`), then real arithmetic; C57 from C35 and a list of the members read |
| C58 | trapezoidal rule over R | product of a mode with the Jacobian is a divergence; grid means of derivatives of smooth periodic functions vanish faster than any power; limit by completeness |
| C59 | bindings.cpp, Python programs | programs as decision trees over calls; an invariant for each stage of use, kept by every call in every environment (`step`); frame rules for what exceptions leave unchanged |
| C60, C61 | read_boozmn, write_boozmn | the file read determines the object, the object the file written |
| C62 | bindings.cpp, memory of the members | a block number for each member, replaced when the number of elements changes (`track`); run() resizes each member at most once (`cost`); for the readers, which resize each member at most once too, the order of the steps is in `PyMem` (`read_wout_steps`, `read_boozmn_steps`: they are the functions of `NcModel`) |
| C63 | init_from_vmec, run | equality of runs on objects with asym = false; C20-style comparison of two runs |
| C64-C67 | surface_solve over R | the grid is mapped onto itself by t, z -> s1 t + dt, s2 z + dz; angles, Jacobian and quantities of the two inputs are related pointwise (`quad_move`) |
| C68 | run in an accurate arithmetic | every quantity of `Func` is locally Lipschitz in its operands; `near`: within C e of the exact value, closed under all operations and loops; an instance with binary floating point numbers |
| C69, C70 | surface_solve over R | C64 applied to an input that the shift maps to itself: (c, s) is a fixed point of a rotation; sums over N periods |
| C71 | run in floating point | C58 and C68 together |
| C72 | all calls of Py | a set of members per call; `spares`: a program sets no others, by induction on its syntax, whatever the object |
| C73 | read_wout, read_boozmn, reader | a triple about worlds that also covers exceptions (`rep`), for an arbitrary file; facts about the file accumulate along the program |
| C74 | run | C68 with the exact arithmetic and inputs that are off |
| C75 | read_boozmn, read_wout | a triple with what is known of each member (`known`, `go`), for an arbitrary file; short files by computation |
| C76 | run, files | `IEEE_accurate`: Coq's specification of IEEE arithmetic (SpecFloat) is an accurate arithmetic, from the definitions of rounding; then C68. NaN by following zeros and infinities through the functions of Func |
| C77 | run | a simulation theorem for pairs of arithmetics (`Sim`), used three times with the product of the floating point and the real numbers; enclosures of cos and sin by alternating series and doubling, of pi by two signs of cos. `CertEx` computes the bounds for one input |
| C78 | run | an arithmetic whose numbers are the sets of all values a quantity may have under any contraction (`Fma`); a `loose` arithmetic gives a family of numbers per quantity, to which the arguments of C68 and C77 are carried over with `Sim`; one contraction strategy is a member of the sets |
| C79 | write_boozmn, then read_boozmn | a triple about the dimensions, variables and pointers registered so far (`st`), resolved when the file is closed (`ok_finish`), in each of the four branches; the reading by C75 |
| C80 | all calls of Py | `sound`: along every path of a program only arrays that fit are stored, by induction on its syntax, with invariants for the arrays that loops build |
| C81 | read_boozmn, read_wout | the triple of C75 together with `calm`: from a file in which everything is present, with a library that does not fail, a step ends normally or is undefined, by a syntactic condition on programs (`tame`: no throw) and the calls of the library |
| C82 | run() | inversion (`Ran`): from a run that returned, step by step, what every access found; the values at the start by the frame (C73). With C01 this gives an equivalence for arrays of the documented shapes; C27_then_run, C28_needed, C28_returns_exactly are obtained in the same way |
| C83 | write_boozmn, read_boozmn | for a return, the invariant of the writing of C79 along the four dimensions of the file, and the triple of C75 with the fact that the buffer of every variable read is not empty; for the exception, the four steps up to pack_rad by computation; with C38 an equivalence after run() |
| C84 | write_boozmn, NetCDFWriter | each step is shown to return or to be undefined behaviour, and which of the two, from what it reads; the registered pointers are followed to `write_and_close`, where a list of blocks is shown to be readable exactly if the object fits. `fit` (WriteExact.v) names members and sizes only, nothing of the writer |
| C85 | read_boozmn, write_boozmn | the triple of C75 with the fact that the loops over iota, Boozer_I_all, Boozer_G_all, compute_surfs and nu only return if they found every element set; with C84 an equivalence |
| C86 | write_boozmn, read_boozmn | from the contents of the written file (C79) a table of names, types, lengths and gaps; with C81 no exception, with C45 a return |

Files, in build order: `Scalar` (arithmetic), `Prog` (programs), `Model` (init, init_trig, surface_solve,
check_accuracy, run), `Wp` (program logic), `Func` (mathematical meaning of the code over any arithmetic, no programs),
`Step`, `TrigProof`, `InitProof`, `SurfProof`, `RunProof` (run() computes `Func`), `Par` (threads), `FuncExt`, `Spec`,
`RunThms`, `Properties_Run`; `RSum`, `RSpec`, `RPoint`, `RQuad`, `RThms`, `RThms2`, `RThms3`, `RExamples`,
`Properties_Real` (real arithmetic); `Vmec` (model of init_from_vmec), `VmecSpec`, `VmecProof`, `VmecRun`, `VmecThms`,
`Properties_Vmec`; `Nc` (files, library, worlds), `NcModel` (reader, writer, read_wout, read_boozmn, write_boozmn),
`NcSpec`, `NcTri`, `NcRead`, `NcBoozmn`, `NcWout`, `NcWrite`, `NcWriteB`, `NcVoc`, `NcThms`, `NcThms2`, `NcEdit`, `NcThms3`,
`NcThms4`, `Properties_Nc`; `Driver` (model of driver.cpp and _cli.py), `DriverSpec`, `DriverParse`, `DriverQuiet`,
`DriverProof`, `BadSurf`, `DriverThms`, `DriverBad`, `Properties_Driver`; `Plots` (model of plots.py), `PlotSpec`, `PlotProof`, `PlotWire`,
`PlotThms`, `PlotReal`, `PlotReal2`, `PlotReal3`, `PlotEx`, `Properties_Plots`; `Conv` (means over periodic grids), `ConvThms`, `ConvMain`,
`ConvEx`, `Properties_Conv`; `Py` (model of bindings.cpp and of programs that use it), `PySpec`, `PyProof`, `PyKeep`, `PyInv`, `NcCopy`, `PyThms`,
`Properties_Py`; `PyView` (memory that arrays obtained from attributes refer to), `PyViewProof`, `PyViewThms`, `PyMem`, `PyMemProof`, `PyMemThms` (the same for all calls), `Properties_View`; `Needed`, `REquiv`, `REquivEx`,
`Properties_More`; `RoundSpec`, `Round`, `RoundThm`, `RoundEx` (floating point formats), `Properties_Round`; `RSymm`, `RSymmEx`, `Properties_Symm`; `Total`, `Properties_Total`; `Frame`, `FrameThms`, `Properties_Frame`; `ReadAll`, `Properties_Read`; `Stable`, `Properties_Stable`; `Short`, `Stored`, `Properties_Stored`; `Ieee` (IEEE floating point), `IeeeProof`, `IeeeThm`, `Properties_Ieee`; `Sim` (runs in two arithmetics), `Cert` (arithmetic with error bounds), `CertProof`, `CertThm`, `CertEx`, `Properties_Cert`; `Fma` (fused multiply-add), `LooseProof`, `FmaProof`, `FmaThm`, `LooseCert`, `FmaEx`, `Properties_Fma`; `Sound`, `SoundThms`, `SoundEx`, `Properties_Sound`; `Written`, `WrittenThm`, `WrittenBack`, `WrittenEx`, `Properties_Written`; `Overflow`, `OverflowEx`, `Properties_Overflow`; `Ran` (inversion of runs that returned), `VmecNeeds`, `RunInit`, `RunNeeds`, `RunExact`, `Properties_Exact` (C27, C28, C82); `Leak` (how each call on a file ends), `LeakThms`, `Properties_Ends` (C39, C45, C52, C53); `NoSurf`, `ReadNeeds`, `Properties_NoSurf` (C83); `WriteExact`, `WriteExactThm`, `WriteExactEx`, `Properties_WriteExact` (C84); `ReadWrite`, `Properties_ReadWrite` (C85); `Accepted`, `Properties_Accepted` (C86). Only the `Properties_*` files are needed to read the claims, together with `Spec`, `RSpec`,
`VmecSpec`, `NcSpec`, `NcVoc`, `DriverSpec`, `PlotSpec`, `PySpec`, `PyView` and the definitions at the beginning of `ConvMain` and `NcCopy`, `same_sym_args` in `Needed` and `moved`, `add_lambda`, `reversed`, `mirrored` in `REquiv`, `whole`, `invariant`, `axisymmetric`, `helical`, `with_periods` in `RSymm`, `RoundSpec`, `RoundEx`, `Ieee`, `Cert` and `CertThm` (`knows`, `covers`), and the beginnings of `Frame`, `ReadAll`, `Stable`, `Stored`, `Overflow` and `Leak` (`next_works`, `can_open`) and `fails_in` in `LeakThms` for their vocabulary; `MANIFEST.json` maps property ids to theorem names.

## 3. What is not modelled

* Wall-clock time, memory exhaustion (`bad_alloc`), the text layout of printed numbers (events carry the values).
* Rounding errors are the subject of C68, C71, C76, C77 and C78 only. `accurate` is proved of the formats in `RoundEx` (values are real
  numbers or overflowed) and of IEEE 754 (`Ieee`), given a libm accurate to some e; that a particular libm is so is not proved.
* In real arithmetic x / 0 is 0. Where this matters (G + iota I = 0 on a surface, |B| = 0 at a point) theorems that give values have the
  hypothesis that it does not happen; C18, C64, C66, C67, C69 and C70, which compare runs or give zeros, do not, and say nothing about
  the code for such surfaces (it divides by zero).
* The operation order of the source is assumed (no vectorised sums, no -ffast-math); contraction to fused multiply-add is the subject
  of C78 only, where `flt` and `ftoZ` (printed figures) are not sets.
* matplotlib/plotly drawing calls: plots.py is modelled up to the data handed over (curves, colours, labels, grids, axis
  limit). Line styles, axis labels, contour levels and fill are left out; a call to `plt.plot` succeeds if its arguments have
  equal lengths. NumPy integers do not wrap around. Of several exceptions the model's first one is raised. `np.argsort` is
  any function that sorts (`sorts`).
* HDF5-based NetCDF-4 details; only whole-variable access as used by the code. Numeric types other than int and double.
  A failing `nc_*` call is assumed to have no effect. What a file that was not closed contains is not specified.
* In read_wout each local matrix is declared right before it is read (the code declares three, then reads three);
  allocation failures are not modelled, so the order is not observable.
* driver.cpp and _cli.py: the control file is its text (ASCII; Python decodes other characters first); reading it fails
  completely or not at all. Python's limit of 4300 digits. What NumPy and pybind11 make of a list with a number that is not an
  int is a parameter (`conv`). That an uncaught exception ends the process with an error status. The output of
  `std::cout << path` and the usage text.
* bindings.cpp: attribute setters convert to a copy of the right type, or raise TypeError; in `Py` the getters give the
  program the whole object. That the arrays they return share memory with the object is modelled in `PyView` (assignments
  and run()) and `PyMem` (all calls). The keyword names and docstrings are not modelled. One
  object, one thread; other programs may change the file system between two calls (`Elsewhere`).

## 4. Trusted base

* Coq 8.16.1's kernel.
* The correspondence, read by eye, between `/repo` and the definitions of `Model.v`, `Vmec.v`, `NcModel.v`, `Driver.v`, `Plots.v`, `Py.v` and `PyView.v`, each of which cites
  the lines it models and says what it simplifies.
* The description of the NetCDF library in `Nc.v` (from its documentation; the library is not part of `/repo`), of
  `operator>>`, `std::sort`, `str.split` and `int()` in `Driver.v`, of NumPy (`linspace`, `meshgrid`, indexing, `max`) in `Plots.v`,
  of pybind11 (Eigen members are returned as read-only arrays that share memory) and Eigen (memory is replaced when the number of elements
  changes, and only then) in `PyView.v`.
* `Print Assumptions` (run at the end of every `Properties_*` file): every theorem of `Properties_Run` is closed under
  the global context except `C20_sources_differ`; `Properties_Vmec` is closed except `C30_*`; `Properties_Nc` is closed
  except `C35_s_b_refuted`, `C36_restores_refuted` and `C38_unchanged_refuted`; `Properties_Driver`, `Properties_Frame`, `Properties_Read`, `Properties_Stored`, `Properties_Written`, `Properties_Sound`, `Properties_Overflow`, `Properties_Exact` and `Properties_Ends`, `Properties_NoSurf`, `Properties_WriteExact`, `Properties_ReadWrite`, `Properties_Accepted` are closed; `Properties_Py` is closed except `C60_copy_refuted` and `C61_flux_refuted`, `Properties_View` except `C62_kept_refuted`, `Properties_More` except `C64_*` to `C67_*`; of `Properties_Plots` `C49_bad_index`,
  `C49_after_run`, `C49_after_read`, `C49_only_read`, `C50_modeplot_any`, `C50_too_many`, `C55_symplot`, `C55_legend`, `C55_legend_refuted`,
  `C57_plot_of_file` and `C57_orig` are closed; the other theorems of `Properties_Plots`, the exceptions and the theorems of
  `Properties_Real` depend on the three axioms of the standard library's reals
  (`ClassicalDedekindReals.sig_not_dec`, `ClassicalDedekindReals.sig_forall_dec`,
  `FunctionalExtensionality.functional_extensionality_dep`). `Properties_Conv` and `Properties_Symm` depend on these three, `C58_converges` and
  `Properties_Round`, `Properties_Total`, `Properties_Stable`, `C76_errors` also on `Classical_Prop.classic`. `C76_accurate` and `C76_finite_refuted` depend on the three, `C76_comparison` and `C76_integers` on two of them; `C76_round_trip` is closed. `C77_certified`, `C78_any`, `C78_errors`, `C78_contracted` and `C78_certified` depend on the same four as `C76_errors`, `C78_loose` on the three, `C78_fused` on two of them; `C78_without` is closed. No axiom is added.

## 5. Findings

Violations of the documented or expected behaviour, each with a theorem giving a witness.

1. `C03_mboz_is_max_refuted`: the documentation calls mboz the maximum poloidal mode number; no output mode ever has
   m = mboz, the largest is mboz-1 (init.cpp).
2. `C01_fresh_object_refuted`: run() on a freshly constructed object reads uninitialised members. By `C53_ub` this is so for every object without results, after any earlier calls.
3. `C01_mpol_1_refuted`, `C01_mpol_nyq_0_refuted`, `C01_mboz_0_refuted`: init_trig writes column 1 of its tables whatever
   their size; with one column this is outside the matrix.
4. `C01_xm_eq_mpol_refuted`: mpol is documented as the maximum m, but an input mode with m = mpol is an out-of-range
   access; run() needs m < mpol.
5. `C07_asym_outputs_refuted`: after an asymmetric run, a symmetric run leaves the old asymmetric outputs in place.
6. `C09_banner_lines_refuted`: at verbose>1 one line per surface is printed outside the critical section, so lines of
   different threads can mix. Results are not affected.
7. `C20_last_entry_wins`, `C23_zero_00_mode_refuted`: Boozer_G and Boozer_I are taken from the last Nyquist entry
   with m = n = 0; a second (0,0) entry with zero coefficients makes both 0.
8. `C48_compute_surfs_refuted`, `C48_run_bad_surface`, `C48_driver_bad_surface`, `C48_cli_bad_surface`: run() uses compute_surfs
   entries without checking their range, and neither of the two programs checks them: every out-of-range entry is undefined
   behaviour. run() never throws (`C48_run_never_throws`).
9. `C27_unchanged_refuted`: init_from_vmec stores ns_in before validating; after a rejected call the object no longer
   fits its arrays and run() reads outside them.
10. `C28_ns2_refuted`: with ns = 2 and an m = 1 mode, init_from_vmec reads the third column of a two-column matrix.
11. `C28_verbose_refuted`: at verbose>1, rmnc(0..3,0) and rmnc(0,0..3) are printed whatever the matrix's size.
12. `C28_no_modes_refuted`: with mnmax = 0, validation reads xm[0] of an empty vector.
13. `C30_near_axis_refuted`: odd m >= 3 modes are not extrapolated like m = 1; next to the axis a mode
    sqrt(s)*(a+b*s) is stored too small by a/2*sqrt(s).
14. `C33_stale_selection_refuted`: read_wout into an object whose compute_surfs (left from a larger equilibrium) exceeds
    the new file's range throws, although compute_surfs is about to be overwritten.
15. `C35_s_b_refuted`: read_boozmn recomputes s_b as on VMEC's half grid; other values of s_in are not restored.
16. `C36_restores_refuted`: aspect, Boozer_G and Boozer_I are not restored by read_boozmn.
17. `C37_determinate_refuted`, `C37_beta_indeterminate`: with flux functions, beta_b is computed from an uninitialised
    vector; all its values in the file are indeterminate.
18. `C38_unchanged_refuted`: write_boozmn sets phip[0] of the object to 0.
19. `C39_keeps_old_refuted`: an existing file is truncated before anything is written; a failure loses it. By `C39_any_end` this happens for every object and every failure after nc_create, and only then.
20. `C42_no_crash_refuted`, `C42_no_loss_refuted`, `C42_labels_refuted`: editing compute_surfs between run() and write_boozmn
    reads outside buffers, loses the old file, or writes wrong surface labels silently.
21. `C43_chi_*_refuted`: a missing chi_b leaves chi indeterminate or that of an earlier file, and any error while reading
    chi_b is swallowed.
22. `C44_*_refuted`: a variable with more elements than expected overflows the destination buffer. `C81_*_overflows`: this is so
    for each variable of every file that is otherwise readable.
23. `C45_*_refuted`: handles stay open when an exception is thrown. By `C45_*_ends` this is so for every exception after the file was opened, except those of init_from_vmec in read_wout; by `C45_history` no later call closes them.
24. `C52_nfp_0_refuted`: read_wout divides by nfp before it is validated. By `C52_nfp_0_never` read_wout never returns on any file with nfp = 0.
25. `C53_write_first_refuted`: write_boozmn on an object that was not run reads uninitialised members.
26. `C46_request_refuted`: the resolution in a control file is only a lower bound: the driver uses the maximum of it and the
   default 6*mpol, 2*ntor-1. The surfaces are sorted.
27. `C54_malformed_refuted`, `C54_no_number`: `file >> mboz_in >> nboz_in` leaves nboz_in unassigned if the first number cannot
   be read, and the driver prints it before checking the stream. This happens for every control file that does not begin with
   a number, also for one that begins with an int out of range. _cli.py raises an exception.
28. `C47_malformed_refuted`: the two programs read some files differently: "4 4ext", "... 0 1.5", "4 1_0 ext", numbers out of range.
29. `C47_console_refuted`: driver.cpp always prints "Unable to read more." and "Read compute_surfs", _cli.py does not, though its
   docstring says that the output is the same.
30. `C50_outermost_refuted`, `C56_outermost_refuted`: modeplot's "outermost surface" and wireplot's default surface are the last
   one of compute_surfs, whatever its s. (The C++ program sorts the surfaces; a Python user need not.)
31. `C50_asym_refuted`: modeplot (and symplot) ignore bmns_b; without stellarator symmetry the modes shown need not be the
   largest ones.
32. `C50_too_many`: modeplot raises IndexError if there are fewer than nmodes modes, also with the default nmodes=10.
33. `C55_legend_refuted`: the legend of symplot does not correspond to its curves. With helical_detail=False the entry "Helical"
   is chosen by the rule for helical_detail=True (n is neither nfp*m nor -nfp*m); with helical_detail=True the entry "Other helical" by
   the other rule; and max_m, max_n are not applied.
34. `C55_ymin_refuted`: the default lower limit of the logarithmic axis is 1e-4 times the largest signed value; if no mode
   is positive after the helicity has been removed it is not positive. (m = n = 0 is part of every helicity, so the background is always removed, also with B0=True.)
35. `C56_refine1_refuted`: with refine=1 wireplot draws no curves (`index % refine == 1` never holds).
36. `C56_surface_refuted`: without stellarator symmetry the derivatives of R and Z lack the asymmetric terms, so the surface is
   not displaced along its normal and can cover the curves.
37. `C57_orig`, `C57_orig_refuted`: wireplot of a file name, with its default orig=True, reads mnmax, which read_boozmn does not set.
38. `C59_recover_refuted`: a read_boozmn that throws (here: no variable jlist) can leave compute_surfs resized but not filled; a
   program that catches the exception and goes on with read_wout on a good file then has undefined behaviour (init_from_vmec
   looks for the largest entry of compute_surfs).
39. `C59_rerun_refuted`: run() after read_boozmn() reads members that read_boozmn does not set; it is not reported.
40. `C60_copy_refuted`: a copy made with read_boozmn and write_boozmn has another aspect_b and an indeterminate beta_b.
41. `C61_flux_refuted`: toroidal_flux is documented as "a means to pass this value from the input equilibrium to booz_xform output
   files", but no file contains it.
42. `C62_usable_refuted`: `x = b.bmnc_b; b.compute_surfs = [0]; b.run()` leaves x referring to freed memory (if the number of surfaces
   or of modes is different); reading x is undefined behaviour.
43. `C62_kept_refuted`: `old = b.bmnc_b; ...; b.run()` with as many modes and surfaces changes old to the new results: a program that
   compares two runs without copying compares an array with itself. The documentation does not mention that copies are needed.
44. `C54_one_number`: a control file that contains a single number makes the driver print an indeterminate nboz.
45. `C63_s_in_refuted`, `C63_s_in_required`: s_in is documented as "not needed for the coordinate transformation itself", but every run()
   without it reads beyond the array (init() copies it to s_b).
46. `C63_lmns_size_refuted`: lmns and lmnc are documented with size mnmax_nyq x ns_in; the code uses them with mnmax rows, and an array of
   the documented size is read beyond its end if mnmax_nyq < mnmax (if it is larger, only the first mnmax rows are used).
47. `C72_profiles_refuted`: read_boozmn() does not set Boozer_G and Boozer_I, documented as outputs with one value per surface of s_b: on a
   new object they stay empty, on one that has been used they stay those of the earlier run (`C72_changes_only`; see also `C36_restores_refuted`).
48. `C75_filled_refuted`, `C75_own_data_refuted`, `C75_wout_refuted`: a variable of a file that has fewer elements than the dimensions
   announce is not noticed. read_boozmn() leaves the rest of the array uninitialised, or, if the object has read a file of the same
   shape before, with the numbers of that file; read_wout() copies uninitialised elements.
49. `C76_finite_refuted`: run() does not notice that G + iota I = 0 on a surface: in IEEE double precision it returns normally and all
   coefficients are NaN (here G = I = 1, iota = -1, lambda = 0).
50. `C79_mixed_refuted`: after read_boozmn() or run(), read_wout() of another equilibrium leaves the old results in the object, and
   write_boozmn() without run() writes them with the new profiles, without any warning.
51. `C79_other_size_refuted`: in the same situation with another number of surfaces write_boozmn() reads beyond the end of an array
   (compute_surfs is reset to all surfaces, ns_b is not).
52. `C82_negative_refuted`: mboz = nboz = -1 is not rejected: run() returns normally with mnboz = 2 (the product of two negative
   numbers), two modes (0, 0) and all coefficients 0. (In a debug build the assertion in init.cpp:63 fails.) Every other value outside
   the documented ranges is undefined behaviour (`C82_needed`).
53. `C27_then_run`: finding 9 holds for every object: after any rejected init_from_vmec with a larger ns, or ns < 1, run() is undefined behaviour.
54. `C83_writable_refuted`, `C83_no_surface_throws`: run() accepts an empty compute_surfs and returns, but write_boozmn of such an object always throws "NC_UNLIMITED size already in use" (dimensions of length 0 are unlimited ones), after it has truncated an existing file of that name, and leaves the handle open.
55. `C85_gaps_refuted`: a boozmn file whose bmnc_b has fewer numbers than modes times surfaces is read without any complaint, and write_boozmn
   then writes uninitialised memory into the new file.

## 6. Running the model

`validation/regression.py` runs the model on the project's own regression data (a test of the model, no part of any proof): it extracts
`read_wout`, `bx_run`, `write_boozmn`, `read_boozmn`, the driver and the command line program to OCaml, with OCaml's floats as scalars,
and repeats `tests/test_regression.py`, with its tolerances and exclusions. Results:

| Case | Surfaces | Outcome |
|---|---|---|
| circular_tokamak, flux 0 and 1 | all 16 | agrees, largest difference 1.5e-14 |
| up_down_asymmetric_tokamak, flux 0 and 1 | all 16 | agrees, largest difference 2.1e-14 |
| li383_1.4m, flux 1 | jlist = 2 | agrees, largest difference 6.9e-15 |
| LandremanSenguptaPlunk_section5p3, flux 1 | jlist = 3 | agrees, largest difference 1.0e-14 |
| li383_1.4m, flux 0 | jlist = 3, 4, 25, 49 | agrees, largest difference 1.0e-14 |
| LandremanSenguptaPlunk_section5p3, flux 0 | jlist = 2, 4, 25, 49 | agrees, largest difference 1.0e-14 |
| `read_boozmn` on the reference files | all | succeeds, matrices equal to those of the file |
| driver and command line program on the same request | | both exit with 0 and leave the same file |

The test trusts Coq's extraction, the OCaml compiler and C library, the replacement of Z, nat, strings and lists by OCaml's integers,
strings and arrays (described in the script), and the script's own reader of classic NetCDF files.

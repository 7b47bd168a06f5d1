(** The vocabulary of the theorems about Python programs: the documented way of using an object.

    docs/usage.rst and bindings.cpp: provide the input data (read_wout, init_from_vmec, or by
    setting the attributes), adjust the parameters, run(), then write_boozmn() or use the results;
    or read_boozmn() to get earlier results. *)
From Coq Require Import ZArith List String Bool.
From Verif Require Import Scalar Prog Model Wp Func Spec Vmec VmecSpec Nc NcModel NcSpec NcVoc Py.
Import ListNotations.
Local Open Scope Z_scope.

Section PySpec.
Context {S : Scalar}.
Notation obj := (obj S).
Notation world := (world S).
Variable version : string.

(** How far the user has got with the object. *)
Inductive stage : Set :=
| Broken      (* read_boozmn threw: compute_surfs may be indeterminate *)
| Empty       (* no complete set of input data *)
| Ready       (* complete input data *)
| Done        (* run() has succeeded, and the inputs are still the same *)
| Loaded.     (* read_boozmn has succeeded *)

(** Attributes that run() does not use *)
Definition touch (c : call S) : bool :=
  match c with
  | PutInt I_verbose _ | PutFlt F_aspect _ | PutFlt F_toroidal_flux _ => true
  | _ => false
  end.
Definition setter (c : call S) : bool :=
  match c with PutInt _ _ | PutBool _ _ | PutFlt _ _ | PutInts _ _ _ | PutArr _ _ _ _ => true | _ => false end.
Definition sets_surfs (c : call S) : bool := match c with PutInts N_compute_surfs _ _ => true | _ => false end.

(** The sizes are within the limits of a NetCDF classic file, and there is something to write. *)
Record storable (o : obj) : Prop := mkStb {
  sb_surfs : 1 <= asize (oN o N_compute_surfs) <= 2147483644;
  sb_modes : forall n, oI o I_mnboz = Some n -> n <= 2147483644;
  sb_nsin : forall n, oI o I_ns_in = Some n -> n <= 2147483643;
  sb_version : (String.length version < 2000)%nat
}.

(** [allowed st c w ok exn]: at stage [st] the call [c] is used as documented; the stage is [ok]
    after a normal return and [exn] after an exception. *)
Inductive allowed : stage -> call S -> world -> stage -> stage -> Prop :=
| al_new st w : allowed st New w Empty Empty
| al_elsewhere st g w : allowed st (Elsewhere g) w st st
| al_touch st c w : touch c = true -> allowed st c w st st
(* any other attribute: the input data are no longer known to be complete *)
| al_set st c w : setter c = true -> st <> Broken \/ sets_surfs c = true -> allowed st c w Empty st
| al_set_broken c w : setter c = true -> allowed Broken c w Broken Broken
(* a wout file, which may lack some variables; its contents are as VMEC writes them *)
| al_wout st x w f la asp i d ok :
    st <> Broken -> wFS w x = Some (Whole f) -> wfile S f la asp i d -> wsane S la i d -> wout_ok i d ->
    oI (wO w) I_verbose = Some (verb i) -> ok = Empty \/ (ok = Ready /\ fits_run i) ->
    allowed st (ReadWout x (d_flux S d)) w ok Empty
| al_no_wout st x fl w : wFS w x = None -> allowed st (ReadWout x fl) w st st
| al_vmec st v w i d ok :
    accepted (wO w) i v d -> ok = Empty \/ (ok = Ready /\ fits_run i) -> allowed st (InitFromVmec v) w ok Empty
(* wrong sizes *)
| al_bad_vmec st v w i :
    vready (wO w) i -> 1 - INT_MAX <= v_ns S v <= INT_MAX -> ~ well_shaped (wO w) i v ->
    allowed st (InitFromVmec v) w Empty Empty
| al_run st w : st = Ready \/ st = Done -> allowed st Run w Done Done
| al_write x w : storable (wO w) -> allowed Done (Write x) w Done Done
(* chi_b was read without an error *)
| al_copy x w n g : storable (wO w) -> vec_is (oA (wO w) A_chi) n g -> allowed Loaded (Write x) w Loaded Loaded
(* a boozmn file, which may lack some variables *)
| al_boozmn st x w f d :
    wFS w x = Some (Whole f) -> bfile S f d -> bsane S d -> allowed st (ReadBoozmn x) w Loaded Broken
| al_no_boozmn st x w : wFS w x = None -> allowed st (ReadBoozmn x) w st st.

(** The program [s], started in the world [w] at stage [st], makes only such calls, whatever
    happens.  When the input data are complete and in range, however they got there, the stage is
    [Ready]; when they are still those of the last run(), it is [Done]. *)
Inductive obeys : stage -> script S -> world -> Prop :=
| ob_stop st w : obeys st Stop w
| ob_do st c k w ok exn :
    allowed st c w ok exn ->
    (forall w', exec version c w = IOk tt w' -> obeys ok (k None (wO w')) w') ->
    (forall m w', exec version c w = IThrow m w' -> obeys exn (k (Some m) (wO w')) w') ->
    obeys st (Do c k) w
| ob_ready st s w i : valid (wO w) i -> fluxes_ok (wO w) (nsin i + 1) -> obeys Ready s w -> obeys st s w
| ob_done st s w i : after_run (wO w) i -> fluxes_ok (wO w) (nsin i + 1) -> obeys Done s w -> obeys st s w.

End PySpec.

(** Properties C26 - C32, C34, C51: init_from_vmec. *)
From Coq Require Import ZArith QArith List String Bool Reals.
From Verif Require Import Scalar Prog Model Wp Func RunProof FuncExt Spec RunThms Vmec VmecSpec VmecThms.
Import ListNotations.
Local Open Scope Z_scope.

(** ** C26 *)
Theorem C26_rejects_exactly : forall (S : Scalar) (o : obj S) i v,
  vready o i -> 1 - INT_MAX <= v_ns S v <= INT_MAX ->
  (~ well_shaped o i v <-> exists msg o' ev, run (init_from_vmec S v) o = RThrow msg o' ev).
Proof. exact (@rejects_exactly). Qed.
Theorem C26_accepts : forall (S : Scalar) (o : obj S) i v d, accepted o i v d ->
  exists o' ev, vmec_ok v o o' ev.
Proof. exact (@accepts). Qed.
Example C26_case : forall S,
  vready (obj_of (vex S true 1 2 two_surfs)) (vex S true 1 2 two_surfs) /\
  accepted (obj_of (vex S true 1 2 two_surfs)) (vex S true 1 2 two_surfs)
    (args_of S (vex S true 1 2 two_surfs) (vexd S true 4)) (vexd S true 4) /\
  exists msg o' ev, run (init_from_vmec S (bad_args S)) (obj_of (ex_inp S false)) = RThrow msg o' ev.
Proof. exact (fun S => conj (vex_ready S true 1 2 two_surfs (Z.le_0_2))
   (conj (vex_accepted S true true) (bad_args_case S))). Qed.

(** ** C27 *)
Theorem C27_rejected_state_partial : forall (S : Scalar) (o : obj S) v msg o' ev,
  run (init_from_vmec S v) o = RThrow msg o' ev ->
  ev = [] /\ (forall f, oB o' f = oB o f) /\ (forall f, f <> I_ns_in -> oI o' f = oI o f) /\
  (forall f, oF o' f = oF o f) /\ (forall f, oN o' f = oN o f) /\ (forall f, oA o' f = oA o f).
Proof. exact (@rejected_state). Qed.
Example C27_case : forall S, exists msg o' ev,
  run (init_from_vmec S (bad_args S)) (obj_of (ex_inp S false)) = RThrow msg o' ev.
Proof. exact bad_args_case. Qed.
Theorem C27_unchanged_refuted : forall S, exists (o : obj S) i v msg o' ev,
  valid o i /\ run (init_from_vmec S v) o = RThrow msg o' ev /\ oI o' I_ns_in <> oI o I_ns_in /\
  exists why, run (bx_run S) o' = RUB why.
Proof. exact ns_in_changed. Qed.

(** ** C28: accesses inside the arrays whenever there is room ([accepted] includes [room]) *)
Theorem C28_no_stray_access_partial : forall (S : Scalar) (o : obj S) i v d, accepted o i v d ->
  forall why, run (init_from_vmec S v) o <> RUB why.
Proof. exact (@never_ub). Qed.
Example C28_case : forall S,
  accepted (obj_of (vex S false 1 2 two_surfs)) (vex S false 1 2 two_surfs)
    (args_of S (vex S false 1 2 two_surfs) (vexd S false 4)) (vexd S false 4).
Proof. exact (fun S => vex_accepted S false false). Qed.
Theorem C28_ns2_refuted : forall S, exists (i : Inp S) d,
  d_ns S d = 2 /\ verb i = 0 /\ xm i 1 = 1 /\ vcrash S i d.
Proof. exact ns2_crash. Qed.
Theorem C28_verbose_refuted : forall S, exists (i : Inp S) d,
  4 <= d_ns S d /\ mnmax i = 2 /\ verb i = 2 /\ vcrash S i d.
Proof. exact verbose2_crash. Qed.
Theorem C28_no_modes_refuted : forall S, exists (o : obj S) v,
  wf_obj o /\ (forall f, In f [N_xm; N_xn; N_xm_nyq; N_xn_nyq] -> asize (oN o f) = 0) /\
  oI o I_mnmax = Some 0 /\ oI o I_mnmax_nyq = Some 0 /\ 2 <= v_ns S v /\
  exists why, run (init_from_vmec S v) o = RUB why.
Proof. exact no_modes_crash. Qed.

(** ** C29 *)
Theorem C29_half_grid : forall (S : Scalar) (o : obj S) i v d, accepted o i v d ->
  exists o' ev, vmec_ok v o o' ev /\
    oI o' I_ns_in = Some (v_ns S v - 1) /\
    (forall j, 0 <= j < v_ns S v - 1 ->
       elem o' A_s_in j = Some (Some (f1 S / (fofZ S (v_ns S v) - f1 S) * (fofZ S j + flit S (1 # 2)))%sc) /\
       elem o' A_iota j = at1 (v_iotas S v) (j + 1) /\ elem o' A_iota j <> None /\ elem o' A_iota j <> Some None) /\
    (forall f a, In (f, a) (half_sym v) \/ (asym i = true /\ In (f, a) (half_asym v)) ->
       arows (oA o' f) = arows a /\ acols (oA o' f) = v_ns S v - 1 /\
       forall k j, 0 <= k < arows a -> 0 <= j < v_ns S v - 1 ->
         elem2 o' f k j = at2 a k (j + 1) /\ elem2 o' f k j <> None /\ elem2 o' f k j <> Some None).
Proof. exact (@half_grid). Qed.
Example C29_case : forall S,
  accepted (obj_of (vex S true 1 2 two_surfs)) (vex S true 1 2 two_surfs)
    (args_of S (vex S true 1 2 two_surfs) (vexd S true 4)) (vexd S true 4).
Proof. exact (fun S => vex_accepted S true true). Qed.

(** ** C30, in real arithmetic *)
Local Open Scope R_scope.
Theorem C30_interpolation : forall (o : obj RS) i v d, accepted o i v d ->
  exists o' ev, vmec_ok v o o' ev /\
    forall f x, In (f, x) (full_sym v) \/ (asym i = true /\ In (f, x) (full_asym v)) ->
    forall k m, elemN o N_xm k = Some (Some m) -> forall a b : R,
      (Z.Even m -> full_is x (v_ns RS v) k 0 (fun s => a + b * s) ->
         half_is o' f (v_ns RS v) k 0 (fun s => a + b * s)) /\
      (Z.Odd m -> full_is x (v_ns RS v) k 1 (fun s => sqrt s * (a + b * s)) ->
         half_is o' f (v_ns RS v) k 1 (fun s => sqrt s * (a + b * s)) /\
         (m = 1%Z -> half_is o' f (v_ns RS v) k 0 (fun s => sqrt s * (a + b * s))) /\
         (m <> 1%Z -> at2 x k 0 = Some (Some 0) ->
            elem2 o' f k 0 = Some (Some (let s := s_half_R (v_ns RS v) 0 in sqrt s * (a + b * s) - a / 2 * sqrt s)))).
Proof. exact interpolation. Qed.
Example C30_case : accepted (obj_of vex3) vex3 (args_of RS vex3 vexd3) vexd3 /\
  accepted (obj_of (vex RS true 1 2 two_surfs)) (vex RS true 1 2 two_surfs)
    (args_of RS (vex RS true 1 2 two_surfs) (vexd RS true 4)) (vexd RS true 4).
Proof. exact (conj vex3_accepted (vex_accepted RS true true)). Qed.
(** The form sqrt(s) * affine is not reproduced next to the axis for m = 3. *)
Theorem C30_near_axis_refuted : exists (o : obj RS) i v d k, accepted o i v d /\
  elemN o N_xm k = Some (Some 3%Z) /\ full_is (v_rmnc RS v) (v_ns RS v) k 0 sqrt /\
  forall o' ev, vmec_ok v o o' ev -> ~ half_is o' A_rmnc (v_ns RS v) k 0 sqrt.
Proof. exact near_axis_inexact. Qed.
Local Close Scope R_scope.

(** ** C31 *)
Theorem C31_defaults : forall (S : Scalar) (o : obj S) i v d, accepted o i v d ->
  exists o' ev, vmec_ok v o o' ev /\
    oI o' I_mboz = Some (6 * mpol i) /\ oI o' I_nboz = Some (Z.max (2 * ntor i - 1) 0) /\
    asize (oN o' N_compute_surfs) = v_ns S v - 1 /\
    forall j, 0 <= j < v_ns S v - 1 -> elemN o' N_compute_surfs j = Some (Some j).
Proof. exact (@default_resolution). Qed.
Example C31_case : forall S,
  accepted (obj_of (vex S false 1 2 two_surfs)) (vex S false 1 2 two_surfs)
    (args_of S (vex S false 1 2 two_surfs) (vexd S true 4)) (vexd S true 4).
Proof. exact (fun S => vex_accepted S false true). Qed.

(** ** C32 *)
Theorem C32_fluxes : forall (S : Scalar) (o : obj S) i v d, accepted o i v d ->
  exists o' ev, vmec_ok v o o' ev /\
    (asize (v_phip S v) = 0 ->
       (forall f, In f flux_arrays -> asize (oA o' f) = 0) /\ oF o' F_toroidal_flux = Some (flit S (0 # 1))) /\
    (asize (v_phip S v) <> 0 ->
       (forall f, In f flux_arrays -> asize (oA o' f) = v_ns S v) /\
       (forall j, 0 <= j < v_ns S v ->
          (exists x, at1 (v_phip S v) j = Some (Some x) /\ elem o' A_phip j = Some (Some (- x / ftwopi S)%sc)) /\
          elem o' A_chi j = at1 (v_chi S v) j /\ elem o' A_pres j = at1 (v_pres S v) j /\
          elem o' A_phi j = at1 (v_phi S v) j) /\
       exists x, at1 (v_phi S v) (v_ns S v - 1) = Some (Some x) /\ oF o' F_toroidal_flux = Some x).
Proof. exact (@fluxes). Qed.
Example C32_case : forall S fl,
  accepted (obj_of (vex S false 1 2 two_surfs)) (vex S false 1 2 two_surfs)
    (args_of S (vex S false 1 2 two_surfs) (vexd S fl 4)) (vexd S fl 4).
Proof. exact (fun S fl => vex_accepted S false fl). Qed.

(** ** C34 *)
Theorem C34_then_run : forall (S : Scalar) (o : obj S) i v d, accepted o i v d -> fits_run i ->
  exists o1 e1 o2 e2, vmec_ok v o o1 e1 /\ run_ok o1 o2 e2 /\
    oI o2 I_ns_b = Some (v_ns S v - 1) /\ asize (oA o2 A_s_b) = v_ns S v - 1 /\
    forall f, In f sym_outs \/ (asym i = true /\ In f asym_outs) ->
      acols (oA o2 f) = v_ns S v - 1 /\
      forall k b, 0 <= k < arows (oA o2 f) -> 0 <= b < v_ns S v - 1 -> exists x, elem2 o2 f k b = Some (Some x).
Proof. exact (@then_run). Qed.
Example C34_case : forall S asy,
  accepted (obj_of (vex S asy 1 2 two_surfs)) (vex S asy 1 2 two_surfs)
    (args_of S (vex S asy 1 2 two_surfs) (vexd S true 4)) (vexd S true 4) /\
  fits_run (vex S asy 1 2 two_surfs).
Proof. exact (fun S asy => conj (vex_accepted S asy true) (vex_fits S asy)). Qed.

(** ** C51 *)
Theorem C51_changes_only : forall (S : Scalar) (o : obj S) i v d, accepted o i v d ->
  exists o' ev, vmec_ok v o o' ev /\ vmec_frame (asym i) o o' /\ ev = vmec_lines i d.
Proof. exact (@vmec_changes_only). Qed.
Example C51_case : forall S asy,
  accepted (obj_of (vex S asy 1 2 two_surfs)) (vex S asy 1 2 two_surfs)
    (args_of S (vex S asy 1 2 two_surfs) (vexd S true 4)) (vexd S true 4).
Proof. exact (fun S asy => vex_accepted S asy true). Qed.

Print Assumptions C26_rejects_exactly.
Print Assumptions C26_accepts.
Print Assumptions C27_rejected_state_partial.
Print Assumptions C27_unchanged_refuted.
Print Assumptions C28_no_stray_access_partial.
Print Assumptions C28_ns2_refuted.
Print Assumptions C28_verbose_refuted.
Print Assumptions C28_no_modes_refuted.
Print Assumptions C29_half_grid.
Print Assumptions C30_interpolation.
Print Assumptions C30_near_axis_refuted.
Print Assumptions C31_defaults.
Print Assumptions C32_fluxes.
Print Assumptions C34_then_run.
Print Assumptions C51_changes_only.

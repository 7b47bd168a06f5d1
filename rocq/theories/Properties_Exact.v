(** Properties C27, C28 and C82: exactly when init_from_vmec and run() return. *)
From Coq Require Import ZArith List String Bool Lia.
From Verif Require Import Scalar Prog Model Wp Func RunProof FuncExt Spec RunThms Vmec VmecSpec VmecThms VmecNeeds RunNeeds RunExact.
Import ListNotations.
Local Open Scope Z_scope.

(** ** C27: ns_in after any rejected call, and run() after it *)
Theorem C27_ns_in_always : forall (S : Scalar) (o : obj S) v msg o' ev,
  run (init_from_vmec S v) o = RThrow msg o' ev -> oI o' I_ns_in = Some (v_ns S v - 1).
Proof. exact (@rejected_ns_in). Qed.
Theorem C27_then_run : forall (S : Scalar) (o : obj S) v msg o' ev,
  wf_obj o -> run (init_from_vmec S v) o = RThrow msg o' ev ->
  v_ns S v < 1 \/ acols (oA o A_bsubumnc) < v_ns S v - 1 \/ acols (oA o A_bsubvmnc) < v_ns S v - 1 ->
  exists why, run (bx_run S) o' = RUB why.
Proof. exact (@rejected_then_run). Qed.
Example C27_then_run_case : forall S,
  wf_obj (obj_of (ex_inp S false)) /\ acols (oA (obj_of (ex_inp S false)) A_bsubumnc) < v_ns S (bad_args S) - 1 /\
  exists msg o' ev, run (init_from_vmec S (bad_args S)) (obj_of (ex_inp S false)) = RThrow msg o' ev.
Proof. exact (@rejected_case). Qed.

(** ** C28: what follows from a normal return, for any object and any arguments *)
Theorem C28_needed : forall (S : Scalar) (o : obj S) v o' ev, wf_obj o -> vmec_ok v o o' ev ->
  exists n mn mq nt ntq mp vb,
  oI o I_nfp = Some n /\ oI o I_mnmax = Some mn /\ oI o I_mnmax_nyq = Some mq /\ oI o I_ntor = Some nt /\ oI o I_ntor_nyq = Some ntq /\
  oI o I_mpol = Some mp /\ oI o I_verbose = Some vb /\
  2 <= v_ns S v /\ 1 <= mn /\ 1 <= mq /\
  (v_ns S v = 2 -> forall k, elemN o N_xm k <> Some (Some 1)) /\
  (1 < vb -> 4 <= v_ns S v /\ 4 <= mn) /\
  INT_MIN <= n * nt <= INT_MAX /\ INT_MIN <= n * ntq <= INT_MAX /\
  INT_MIN <= 6 * mp <= INT_MAX /\ INT_MIN <= 2 * nt - 1 /\ 2 * nt <= INT_MAX.
Proof. exact (@returned_needs). Qed.
Theorem C28_returns_exactly : forall (S : Scalar) (o : obj S) i v d,
  vbase o i -> wf_obj o -> vholds v i d -> well_shaped o i v ->
  d_ns S d <= INT_MAX -> mnmax i <= INT_MAX -> mnmaxq i <= INT_MAX ->
  ((exists o' ev, vmec_ok v o o' ev) <-> room i d /\ vints i d).
Proof. exact (@returns_exactly). Qed.
Theorem C28_ub_exactly : forall (S : Scalar) (o : obj S) i v d,
  vbase o i -> wf_obj o -> vholds v i d -> well_shaped o i v ->
  d_ns S d <= INT_MAX -> mnmax i <= INT_MAX -> mnmaxq i <= INT_MAX ->
  INT_MIN <= nfp i * ntor i <= INT_MAX -> INT_MIN <= nfp i * ntorq i <= INT_MAX ->
  ((exists why, run (init_from_vmec S v) o = RUB why) <-> ~ (room i d /\ vints i d)).
Proof. exact (@otherwise_ub). Qed.
(** a call that returns and one that does not *)
Example C28_exactly_case : forall S,
  accepted (obj_of (vex S false 1 2 two_surfs)) (vex S false 1 2 two_surfs)
    (args_of S (vex S false 1 2 two_surfs) (vexd S false 4)) (vexd S false 4) /\
  exists (i : Inp S) d, d_ns S d = 2 /\ verb i = 0 /\ xm i 1 = 1 /\ vcrash S i d.
Proof. exact (fun S => conj (vex_accepted S false false) (ns2_crash S)). Qed.

(** ** C82: what follows from run() having returned, for any object with a selected surface *)
Theorem C82_needed : forall (S : Scalar) (o o' : obj S) ev,
  wf_obj o -> run (bx_run S) o = ROk tt o' ev -> 1 <= asize (oN o N_compute_surfs) ->
  (forall mb nb, oI o I_mboz = Some mb -> oI o I_nboz = Some nb -> 0 <= mb \/ 0 <= nb) ->
  exists b mb nb nf mp nt mq nq nsn mn mnq,
    oB o B_asym = Some b /\ oI o I_mboz = Some mb /\ oI o I_nboz = Some nb /\ oI o I_nfp = Some nf /\ oI o I_mpol = Some mp /\
    oI o I_ntor = Some nt /\ oI o I_mpol_nyq = Some mq /\ oI o I_ntor_nyq = Some nq /\ oI o I_ns_in = Some nsn /\
    oI o I_mnmax = Some mn /\ oI o I_mnmax_nyq = Some mnq /\
    1 <= mb /\ 0 <= nb /\ nf <> 0 /\ 2 <= mp /\ 0 <= nt < INT_MAX /\ 1 <= mq < INT_MAX /\ 0 <= nq < INT_MAX /\ 0 <= nsn /\
    (let nze := if nb =? 0 then 1 else 2 * (2 * nb + 1) in
     (if b then 2 * (2 * mb + 1) else 2 * mb + 2) * nze <= INT_MAX /\ INT_MIN <= nf * nze <= INT_MAX) /\
    (forall j, 0 <= j < nsn -> exists x y, elem2 o A_bsubumnc 0 j = Some (Some x) /\ elem2 o A_bsubvmnc 0 j = Some (Some y)) /\
    forall jb, 0 <= jb < asize (oN o N_compute_surfs) -> exists js, elemN o N_compute_surfs jb = Some (Some js) /\
      (exists x, elem o A_s_in js = Some (Some x)) /\ surface_ok o b js nf mp nt mq nq mn mnq.
Proof. exact (@run_needs). Qed.
(** arrays of the documented shapes: run() returns exactly when the documented requirements hold *)
Theorem C82_returns_exactly : forall (S : Scalar) (o : obj S) i,
  repr o i -> wf_obj o -> int_sized i -> 1 <= nfp i -> 1 <= nsurf i -> (0 <= mboz i \/ 0 <= nboz i) ->
  (asym i = true \/ ntheta i * nzeta i <= INT_MAX) -> ((exists o' ev, run_ok o o' ev) <-> ok_inp i).
Proof. exact (@run_exactly). Qed.
Theorem C82_ub_exactly : forall (S : Scalar) (o : obj S) i,
  repr o i -> wf_obj o -> int_sized i -> 1 <= nfp i -> 1 <= nsurf i -> (0 <= mboz i \/ 0 <= nboz i) ->
  (asym i = true \/ ntheta i * nzeta i <= INT_MAX) -> ((exists why, run (bx_run S) o = RUB why) <-> ~ ok_inp i).
Proof. exact (@run_otherwise). Qed.
Example C82_case : forall S, let i := tiny (S := S) 2 1 1 1 0 1 0 0 in
  repr (obj_of i) i /\ wf_obj (obj_of i) /\ int_sized i /\ ok_inp i /\
  exists why, run (bx_run S) (obj_of (tiny (S := S) 1 1 1 1 0 1 0 0)) = RUB why.
Proof.
  exact (fun S => conj (proj1 (tiny_repr 2 1 1 1 0 1 0 0 Z.le_0_1)) (conj (proj2 (tiny_repr 2 1 1 1 0 1 0 0 Z.le_0_1)) (conj int_case (conj tiny_ok (bad_mpol S))))).
Qed.
(** mboz and nboz both negative: nothing is detected, and there are two modes (0, 0) with all coefficients 0 *)
Theorem C82_negative_refuted : forall S, exists o' ev,
  run (bx_run S) (obj_of (tiny (S := S) 2 1 (-1) 1 (-1) 1 0 0)) = ROk tt o' ev /\
  oI o' I_mnboz = Some 2 /\ oI o' I_n_theta_zeta = Some 0 /\
  (forall k, 0 <= k < 2 -> elemN o' N_xm_b k = Some (Some 0) /\ elemN o' N_xn_b k = Some (Some 0) /\
    forall f, In f [A_bmnc_b; A_rmnc_b; A_zmns_b; A_numns_b; A_gmnc_b] -> elem2 o' f k 0 = Some (Some (f0 S))).
Proof. exact (@negative_runs). Qed.

Print Assumptions C27_ns_in_always.
Print Assumptions C27_then_run.
Print Assumptions C28_needed.
Print Assumptions C28_returns_exactly.
Print Assumptions C28_ub_exactly.
Print Assumptions C82_needed.
Print Assumptions C82_returns_exactly.
Print Assumptions C82_ub_exactly.
Print Assumptions C82_negative_refuted.

(** C84: exactly which objects write_boozmn() writes. *)
From Coq Require Import ZArith List String Bool.
From Verif Require Import Scalar Prog Model Wp Spec Vmec Nc NcModel NcSpec NcVoc Py Frame FrameThms Func NcThms4 WriteExact WriteExactThm WriteExactEx.
Import ListNotations.
Local Open Scope Z_scope.

(** With a library that does not fail, for any well-formed object: it is written exactly if everything that is read is there *)
Theorem C84_returns_exactly : forall (S : Scalar) version x (w : world S) vb ns, wf_obj (wO w) -> lucky S w ->
  Z.of_nat (String.length version) <= 2147483622 ->
  oI (wO w) I_verbose = Some vb -> oI (wO w) I_ns_in = Some ns -> 0 <= ns ->
  ((exists w', write_boozmn S version x w = IOk tt w') <->
   exists mn, oI (wO w) I_mnboz = Some mn /\ ns <= 2147483643 /\ 1 <= mn <= 2147483644 /\
     1 <= asize (oN (wO w) N_compute_surfs) <= 2147483644 /\ fit (wO w) ns mn).
Proof. exact (@returns_exactly). Qed.
(** With lengths the format admits there is no exception: an object that does not fit is undefined behaviour *)
Theorem C84_ub_exactly : forall (S : Scalar) version x (w : world S) vb ns mn, wf_obj (wO w) -> lucky S w ->
  Z.of_nat (String.length version) <= 2147483622 ->
  oI (wO w) I_verbose = Some vb -> oI (wO w) I_ns_in = Some ns -> 0 <= ns <= 2147483643 ->
  oI (wO w) I_mnboz = Some mn -> 1 <= mn <= 2147483644 -> 1 <= asize (oN (wO w) N_compute_surfs) <= 2147483644 ->
  (exists why, write_boozmn S version x w = IUB why) <-> ~ fit (wO w) ns mn.
Proof. exact (@ub_exactly). Qed.
(** The same after any calls, failing ones included, on a new object *)
Theorem C84_after_calls : forall (S : Scalar) version l x (w0 w : world S) vb ns, wO w0 = obj_new S -> performs version l w0 w ->
  lucky S w -> Z.of_nat (String.length version) <= 2147483622 ->
  oI (wO w) I_verbose = Some vb -> oI (wO w) I_ns_in = Some ns -> 0 <= ns ->
  ((exists w', exec version (Write x) w = IOk tt w') <->
   exists mn, oI (wO w) I_mnboz = Some mn /\ ns <= 2147483643 /\ 1 <= mn <= 2147483644 /\
     1 <= asize (oN (wO w) N_compute_surfs) <= 2147483644 /\ fit (wO w) ns mn).
Proof. exact (@after_calls). Qed.

(** Objects that fit, with and without the fluxes, symmetric and not; and one that does not, though only reads that succeeded
    came before. *)
Example C84_fit_case : forall (S : Scalar) asy fl, (asy = true -> fl = true) -> exists (w0 w : world S),
  wO w0 = obj_new S /\ performs "0.0.8" (history S fl) w0 w /\ wf_obj (wO w) /\ lucky S w /\
  oB (wO w) B_asym = Some asy /\ (fl = true <-> asize (oA (wO w) A_phip) <> 0) /\
  oI (wO w) I_verbose = Some 1 /\ oI (wO w) I_ns_in = Some 3 /\ oI (wO w) I_mnboz = Some 1 /\
  asize (oN (wO w) N_compute_surfs) = 3 /\ fit (wO w) 3 1.
Proof. exact fit_case. Qed.
Example C84_unfit_case : forall S : Scalar, exists (w0 w : world S),
  wO w0 = obj_new S /\ performs "0.0.8" (history S false) w0 w /\ wf_obj (wO w) /\ lucky S w /\
  oI (wO w) I_verbose = Some 1 /\ oI (wO w) I_ns_in = Some 3 /\ oI (wO w) I_mnboz = Some 1 /\
  asize (oN (wO w) N_compute_surfs) = 3 /\ ~ fit (wO w) 3 1.
Proof. exact unfit_case. Qed.

Print Assumptions C84_returns_exactly.
Print Assumptions C84_ub_exactly.
Print Assumptions C84_after_calls.

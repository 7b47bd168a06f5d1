(** Property C84: the theorems, and cases that meet their hypotheses. *)
From Coq Require Import ZArith List String Bool Lia.
From Verif Require Import Scalar Prog Model Wp Func FuncExt Spec Vmec Nc NcModel NcSpec NcVoc NcThms NcThms4 Py Frame FrameThms ReadAll Stored Short Written WrittenThm WrittenBack Sound SoundThms SoundEx WrittenEx NoSurf WriteExact WriteExactThm.
Import ListNotations.
Local Open Scope Z_scope.

Section Thms.
Context {S : Scalar}.
Notation world := (world S).

Theorem returns_exactly version x (w : world) vb ns : wf_obj (wO w) -> lucky S w -> Z.of_nat (String.length version) <= 2147483622 ->
  oI (wO w) I_verbose = Some vb -> oI (wO w) I_ns_in = Some ns -> 0 <= ns ->
  ((exists w', write_boozmn S version x w = IOk tt w') <->
   exists mn, oI (wO w) I_mnboz = Some mn /\ ns <= 2147483643 /\ 1 <= mn <= 2147483644 /\ 1 <= asize (oN (wO w) N_compute_surfs) <= 2147483644 /\ fit (wO w) ns mn).
Proof.
  intros W L V Evb Ens Hns. split.
  - intros (w' & E). destruct (write_needs _ _ _ _ E) as (ns' & mn & E1 & E2 & R1 & R2 & R3). rewrite Ens in E1. injection E1 as <-.
    exists mn. do 4 (split; [solve [assumption | lia]|]).
    pose proof (write_ends version x w vb ns mn W L Evb Ens E2 ltac:(lia) R2 R3 V) as H. unfold out in H. now rewrite E in H.
  - intros (mn & E2 & R1 & R2 & R3 & Hf). pose proof (write_ends version x w vb ns mn W L Evb Ens E2 ltac:(lia) R2 R3 V) as H. unfold out in H.
    destruct (write_boozmn S version x w) as [[] w'| | |]; try tauto. now exists w'.
Qed.
Theorem ub_exactly version x (w : world) vb ns mn : wf_obj (wO w) -> lucky S w -> Z.of_nat (String.length version) <= 2147483622 ->
  oI (wO w) I_verbose = Some vb -> oI (wO w) I_ns_in = Some ns -> 0 <= ns <= 2147483643 -> oI (wO w) I_mnboz = Some mn -> 1 <= mn <= 2147483644 ->
  1 <= asize (oN (wO w) N_compute_surfs) <= 2147483644 ->
  (exists why, write_boozmn S version x w = IUB why) <-> ~ fit (wO w) ns mn.
Proof.
  intros W L V Evb Ens R1 Emn R2 R3. pose proof (write_ends version x w vb ns mn W L Evb Ens Emn R1 R2 R3 V) as H. unfold out in H.
  destruct (write_boozmn S version x w) as [[] w'| |why|]; try tauto; split; try tauto; [intros (? & ?); discriminate|eauto].
Qed.
Theorem after_calls version l x (w0 w : world) vb ns : wO w0 = obj_new S -> performs version l w0 w -> lucky S w -> Z.of_nat (String.length version) <= 2147483622 ->
  oI (wO w) I_verbose = Some vb -> oI (wO w) I_ns_in = Some ns -> 0 <= ns ->
  ((exists w', exec version (Write x) w = IOk tt w') <->
   exists mn, oI (wO w) I_mnboz = Some mn /\ ns <= 2147483643 /\ 1 <= mn <= 2147483644 /\ 1 <= asize (oN (wO w) N_compute_surfs) <= 2147483644 /\ fit (wO w) ns mn).
Proof. intros N P. exact (returns_exactly version x w vb ns (sound_object _ _ _ _ N P)). Qed.
End Thms.

Section Ex.
Variable S : Scalar.
Definition history (fl : bool) : list (call S) := if fl then [ReadBoozmn "a.nc"] else [ReadBoozmn "a.nc"; ReadWout "wout.nc" false].
(** The first claim: with and without the fluxes, symmetric and not, the object fits; the second: after reading a file for another
    number of surfaces it does not. *)
Theorem fit_case asy fl : (asy = true -> fl = true) -> exists (w0 w : world S), wO w0 = obj_new S /\ performs "0.0.8" (history fl) w0 w /\ wf_obj (wO w) /\ lucky S w /\
  oB (wO w) B_asym = Some asy /\ (fl = true <-> asize (oA (wO w) A_phip) <> 0) /\
  oI (wO w) I_verbose = Some 1 /\ oI (wO w) I_ns_in = Some 3 /\ oI (wO w) I_mnboz = Some 1 /\ asize (oN (wO w) N_compute_surfs) = 3 /\ fit (wO w) 3 1.
Proof.
  intros Hc. exists (both S (if asy then 1 else 0) 4).
  assert (H : there (after S "0.0.8" (history fl) (both S (if asy then 1 else 0) 4)) (fun w => wQ w = [] /\ oB (wO w) B_asym = Some asy /\ (asize (oA (wO w) A_phip) =? 0) = negb fl /\
    oI (wO w) I_verbose = Some 1 /\ oI (wO w) I_ns_in = Some 3 /\ oI (wO w) I_mnboz = Some 1 /\ asize (oN (wO w) N_compute_surfs) = 3 /\
    match write_boozmn S "0.0.8" "c.nc" w with IOk _ _ => True | _ => False end)).
  { destruct asy, fl; try discriminate (Hc eq_refl); vm_compute; repeat split. }
  destruct (after S "0.0.8" (history fl) (both S (if asy then 1 else 0) 4)) as [w|] eqn:E; [|contradiction]. cbn [there] in H. destruct H as (H1 & H2 & H3 & H4 & H5 & H6 & H7 & H8).
  apply after_performs in E. pose proof (sound_object "0.0.8" (history fl) (both S (if asy then 1 else 0) 4) w eq_refl E) as W.
  exists w. split; [reflexivity|]. do 4 (split; [assumption|]).
  split; [destruct (Z.eqb_spec (asize (oA (wO w) A_phip)) 0), fl; cbn in H3; try discriminate H3; split; congruence|].
  do 4 (split; [assumption|]).
  pose proof (write_ends "0.0.8" "c.nc" w 1 3 1 W H1 H4 H5 H6 ltac:(lia) ltac:(lia) ltac:(lia) ltac:(cbn; lia)) as G. unfold out in G.
  destruct (write_boozmn S "0.0.8" "c.nc" w); try contradiction. exact G.
Qed.
Theorem unfit_case : exists (w0 w : world S), wO w0 = obj_new S /\ performs "0.0.8" (history false) w0 w /\ wf_obj (wO w) /\ lucky S w /\
  oI (wO w) I_verbose = Some 1 /\ oI (wO w) I_ns_in = Some 3 /\ oI (wO w) I_mnboz = Some 1 /\ asize (oN (wO w) N_compute_surfs) = 3 /\ ~ fit (wO w) 3 1.
Proof.
  exists (both S 0 3).
  assert (H : there (after S "0.0.8" (history false) (both S 0 3)) (fun w => wQ w = [] /\
    oI (wO w) I_verbose = Some 1 /\ oI (wO w) I_ns_in = Some 3 /\ oI (wO w) I_mnboz = Some 1 /\ asize (oN (wO w) N_compute_surfs) = 3 /\
    match write_boozmn S "0.0.8" "c.nc" w with IUB _ => True | _ => False end)).
  { vm_compute; repeat split. }
  destruct (after S "0.0.8" (history false) (both S 0 3)) as [w|] eqn:E; [|contradiction]. cbn [there] in H. destruct H as (H1 & H4 & H5 & H6 & H7 & H8).
  apply after_performs in E. pose proof (sound_object "0.0.8" (history false) (both S 0 3) w eq_refl E) as W.
  exists w. split; [reflexivity|]. do 7 (split; [assumption|]).
  pose proof (write_ends "0.0.8" "c.nc" w 1 3 1 W H1 H4 H5 H6 ltac:(lia) ltac:(lia) ltac:(lia) ltac:(cbn; lia)) as G. unfold out in G.
  destruct (write_boozmn S "0.0.8" "c.nc" w); try contradiction. exact G.
Qed.
End Ex.

(** Files with a variable that is too long: the hypotheses of C81 can be met. *)
From Coq Require Import ZArith List String Bool Lia.
From Verif Require Import Scalar Prog Model Wp Func FuncExt Spec Vmec Nc NcModel NcSpec NcVoc NcThms NcThms2 NcThms3 NcThms4 ReadAll Stored Overflow.
Import ListNotations.
Local Open Scope Z_scope.

Section Ex.
Variable S : Scalar.
(** A boozmn file for one mode and one surface with three values of |B| *)
Definition long_b : ncfile S := replaced S (fmat S "bmnc_b" 1 3 (fun i j => fofZ S (i + j))) (bfile_of S (bex S)).
(** A wout file for four radial points with five values of iota *)
Definition long_w : ncfile S := replaced S (fvec S "iotas" 5 (fun j => fofZ S j)) (wex S true true).
Ltac has := let y := fresh in let H := fresh in intros y H; cbn in H; repeat destruct H as [<-|H]; try contradiction; eexists; (split; [reflexivity|exact Logic.I]).
Theorem long_b_case : wf_obj (obj_new S) /\ booz_readable long_b /\ first_int long_b "lasym__logical__" 0 /\ first_int long_b "mnboz_b" 1 /\ dim long_b "radius" 2 /\
  dim long_b "comput_surfs" 1 /\ In ("bmnc_b"%string, 1) (booz_room 1 2 1 (negb (0 =? 0))) /\ more_than long_b "bmnc_b" 1.
Proof.
  split; [apply fresh_usable|]. split.
  { constructor; [has|has|eexists; reflexivity|eexists; reflexivity|]. intros a _ _. has. }
  split; [eexists; split; reflexivity|]. split; [eexists; split; reflexivity|]. split; [reflexivity|]. split; [reflexivity|]. split; [cbn; tauto|].
  eexists. split; [reflexivity|]. vm_compute. reflexivity.
Qed.
Theorem long_w_case : wout_readable long_w true /\ first_int long_w "lasym__logical__" 1 /\ first_int long_w "ns" 4 /\ first_int long_w "mnmax" 2 /\
  first_int long_w "mnmax_nyq" 3 /\ In ("iotas"%string, 4) (wout_room 4 2 3 (negb (1 =? 0)) true) /\ more_than long_w "iotas" 4.
Proof.
  split. { constructor; [has|has| |]. - intros _. has. - intros a _ _. has. }
  do 4 (split; [eexists; split; reflexivity|]). split; [cbn; tauto|]. eexists. split; [reflexivity|]. vm_compute. reflexivity.
Qed.
End Ex.

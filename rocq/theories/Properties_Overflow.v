(** C81: variables with more elements than the arrays they are read into. *)
From Coq Require Import ZArith List String Bool.
From Verif Require Import Scalar Prog Model Wp Func Nc NcModel NcSpec NcVoc NcThms4 ReadAll Stored Overflow OverflowEx.
Import ListNotations.
Local Open Scope Z_scope.

(** A reader that returns has read no variable with more elements than the array it was read into. *)
Theorem C81_boozmn_returned : forall (S : Scalar) x (w w' : world S), wf_obj (wO w) -> read_boozmn S x w = IOk tt w' ->
  exists f, wFS w x = Some (Whole f) /\
  forall a mn ns nb, first_int f "lasym__logical__" a -> first_int f "mnboz_b" mn -> dim f "radius" ns -> dim f "comput_surfs" nb ->
  forall y n, In (y, n) (booz_room mn ns nb (negb (a =? 0))) -> ~ more_than f y n.
Proof. exact (@booz_returned). Qed.
Theorem C81_wout_returned : forall (S : Scalar) x fl (w w' : world S), wf_obj (wO w) -> read_wout S x fl w = IOk tt w' ->
  exists f, wFS w x = Some (Whole f) /\
  forall a ns mn mnq, first_int f "lasym__logical__" a -> first_int f "ns" ns -> first_int f "mnmax" mn -> first_int f "mnmax_nyq" mnq ->
  forall y n, In (y, n) (wout_room ns mn mnq (negb (a =? 0)) fl) -> ~ more_than f y n.
Proof. exact (@wout_returned). Qed.
(** If everything that is read is there, one variable that is too long is enough: the behaviour is undefined. *)
Theorem C81_boozmn_overflows : forall (S : Scalar) x f (w : world S) a mn ns nb y n, wf_obj (wO w) -> lucky S w -> wFS w x = Some (Whole f) -> booz_readable f ->
  first_int f "lasym__logical__" a -> first_int f "mnboz_b" mn -> dim f "radius" ns -> dim f "comput_surfs" nb ->
  In (y, n) (booz_room mn ns nb (negb (a =? 0))) \/ y = "chi_b"%string /\ n = ns /\ has_numbers f y -> more_than f y n ->
  exists why, read_boozmn S x w = IUB why.
Proof. exact (@booz_overflows). Qed.
Theorem C81_wout_overflows : forall (S : Scalar) x fl f (w : world S) a ns mn mnq y n, wf_obj (wO w) -> lucky S w -> wFS w x = Some (Whole f) -> wout_readable f fl ->
  first_int f "lasym__logical__" a -> first_int f "ns" ns -> first_int f "mnmax" mn -> first_int f "mnmax_nyq" mnq ->
  In (y, n) (wout_room ns mn mnq (negb (a =? 0)) fl) -> more_than f y n ->
  exists why, read_wout S x fl w = IUB why.
Proof. exact (@wout_overflows). Qed.
(** If everything that is read is there, read_boozmn reports no error. *)
Theorem C81_boozmn_no_error : forall (S : Scalar) x f (w : world S), wf_obj (wO w) -> lucky S w -> wFS w x = Some (Whole f) -> booz_readable f ->
  (exists w', read_boozmn S x w = IOk tt w') \/ (exists why, read_boozmn S x w = IUB why).
Proof. exact (@booz_calm). Qed.
(** Files that meet these hypotheses; files that are read (C73_case) meet those of the first two. *)
Example C81_case : forall S : Scalar,
  (wf_obj (obj_new S) /\ booz_readable (long_b S) /\ first_int (long_b S) "lasym__logical__" 0 /\ first_int (long_b S) "mnboz_b" 1 /\ dim (long_b S) "radius" 2 /\
   dim (long_b S) "comput_surfs" 1 /\ In ("bmnc_b"%string, 1) (booz_room 1 2 1 (negb (0 =? 0))) /\ more_than (long_b S) "bmnc_b" 1) /\
  (wout_readable (long_w S) true /\ first_int (long_w S) "lasym__logical__" 1 /\ first_int (long_w S) "ns" 4 /\ first_int (long_w S) "mnmax" 2 /\
   first_int (long_w S) "mnmax_nyq" 3 /\ In ("iotas"%string, 4) (wout_room 4 2 3 (negb (1 =? 0)) true) /\ more_than (long_w S) "iotas" 4).
Proof. exact (fun S => conj (long_b_case S) (long_w_case S)). Qed.

Print Assumptions C81_boozmn_returned.
Print Assumptions C81_wout_returned.
Print Assumptions C81_boozmn_overflows.
Print Assumptions C81_wout_overflows.
Print Assumptions C81_boozmn_no_error.

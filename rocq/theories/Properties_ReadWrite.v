(** C85: what read_boozmn() has read can be written. *)
From Coq Require Import ZArith List String Bool.
From Verif Require Import Scalar Prog Model Wp Spec Vmec Nc NcModel NcSpec NcVoc Py Frame FrameThms Func NcThms4 Written WrittenEx WriteExact ReadWrite.
Import ListNotations.
Local Open Scope Z_scope.

(** After any calls on a new object, failing ones included, and a read_boozmn of any file, short variables included, that
    returned: with a library that does not fail the object can be written exactly if the lengths are legal in a file and the
    numbers of the surfaces are ints. *)
Theorem C85_read_then_write : forall (S : Scalar) version l x y (w0 w w1 : world S), wO w0 = obj_new S -> performs version l w0 w ->
  exec version (ReadBoozmn x) w = IOk tt w1 -> lucky S w1 -> Z.of_nat (String.length version) <= 2147483622 ->
  ((exists w2, exec version (Write y) w1 = IOk tt w2) <->
   exists ns mn, oI (wO w1) I_ns_in = Some ns /\ oI (wO w1) I_mnboz = Some mn /\ ns <= 2147483643 /\ mn <= 2147483644 /\
     asize (oN (wO w1) N_compute_surfs) <= 2147483644 /\
     forall j c, znth (adata (oN (wO w1) N_compute_surfs)) j = Some (Some c) -> INT_MIN <= c + 2 <= INT_MAX).
Proof. exact (@read_then_write). Qed.
(** What read_boozmn leaves without gaps, for any object, any file and any behaviour of the library *)
Theorem C85_set : forall (S : Scalar) x (w w' : world S), wf_obj (wO w) -> read_boozmn S x w = IOk tt w' ->
  exists mn ns nb asy, oI (wO w') I_mnboz = Some mn /\ oI (wO w') I_ns_in = Some ns /\ oI (wO w') I_ns_b = Some nb /\
  oB (wO w') B_asym = Some asy /\ set_to (oN (wO w') N_compute_surfs) nb /\
  (forall k, In k [A_iota; A_Boozer_I_all; A_Boozer_G_all] -> set_to (oA (wO w') k) ns) /\
  set_to (oA (wO w') A_numns_b) (mn * nb) /\ (asy = true -> set_to (oA (wO w') A_numnc_b) (mn * nb)).
Proof. exact (@read_set). Qed.
(** "What is written comes from the inputs" is false: a file whose bmnc_b has too few numbers is read and written without any
    complaint, with numbers in the new file that were never set. *)
Theorem C85_gaps_refuted : forall S : Scalar, exists x y (w w1 w2 : world S) f ds l, wO w = obj_new S /\ lucky S w /\
  read_boozmn S x w = IOk tt w1 /\ write_boozmn S "0.0.8" y w1 = IOk tt w2 /\
  wFS w2 y = Some (Whole f) /\ holds f "bmnc_b" ds (VDbl l) /\ In None l.
Proof. exact gaps_written. Qed.
(** A file that is not symmetric meets the hypotheses (of the first theorem with no calls before), and can be written. *)
Example C85_case : forall S : Scalar, exists w1 : world S, exec "0.0.8" (ReadBoozmn "a.nc") (both S 1 4) = IOk tt w1 /\
  wO (both S 1 4) = obj_new S /\ lucky S w1 /\
  oI (wO w1) I_ns_in = Some 3 /\ oI (wO w1) I_mnboz = Some 1 /\ asize (oN (wO w1) N_compute_surfs) = 3 /\
  adata (oN (wO w1) N_compute_surfs) = [Some 0; Some 1; Some 2] /\ exists w2, exec "0.0.8" (Write "c.nc") w1 = IOk tt w2.
Proof. exact read_write_case. Qed.

Print Assumptions C85_read_then_write.
Print Assumptions C85_set.
Print Assumptions C85_gaps_refuted.

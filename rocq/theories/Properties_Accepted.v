(** C86: what write_boozmn() has written can be read. *)
From Coq Require Import ZArith List String Bool.
From Verif Require Import Scalar Prog Model Wp Func Spec Nc NcModel NcSpec NcVoc NcThms4 ReadAll Stored WriteExact Overflow Accepted.
Import ListNotations.
Local Open Scope Z_scope.

(** Whatever the object contains, and however the library behaves: everything read_boozmn reads is in the file, and nothing is
    longer than the array it is read into. *)
Theorem C86_fits : forall (S : Scalar) version x (w w' : world S), wf_obj (wO w) -> write_boozmn S version x w = IOk tt w' ->
  exists f, wFS w' x = Some (Whole f) /\ booz_readable f /\
  exists a mn ns nb, first_int f "lasym__logical__" a /\ first_int f "mnboz_b" mn /\ dim f "radius" ns /\ dim f "comput_surfs" nb /\
  forall y n, In (y, n) (booz_room mn ns nb (negb (a =? 0))) -> ~ more_than f y n.
Proof. exact (@written_fits). Qed.
(** So, unless the library fails, read_boozmn throws nothing ... *)
Theorem C86_never_refused : forall (S : Scalar) version x (w w1 v : world S), wf_obj (wO w) -> wf_obj (wO v) ->
  write_boozmn S version x w = IOk tt w1 -> wFS v x = wFS w1 x -> lucky S v ->
  (exists v1, read_boozmn S x v = IOk tt v1) \/ (exists why, read_boozmn S x v = IUB why).
Proof. exact (@never_refused). Qed.
(** ... and it returns if no number that was written had never been set. *)
Theorem C86_read_again : forall (S : Scalar) version x (w w1 v : world S), wf_obj (wO w) ->
  (forall k, In k [I_nfp; I_mboz; I_nboz] -> oI (wO w) k <> None) ->
  (forall k, In k [N_xm_b; N_xn_b; N_compute_surfs] -> set_to (oN (wO w) k) (asize (oN (wO w) k))) ->
  (forall k, In k [A_iota; A_Boozer_I_all; A_Boozer_G_all; A_phip; A_chi; A_pres; A_phi; A_bmnc_b; A_rmnc_b; A_zmns_b; A_numns_b; A_gmnc_b;
                   A_bmns_b; A_rmns_b; A_zmnc_b; A_numnc_b; A_gmns_b] -> set_to (oA (wO w) k) (asize (oA (wO w) k))) ->
  (forall j c, znth (adata (oN (wO w) N_compute_surfs)) j = Some (Some c) -> INT_MIN <= c <= INT_MAX - 2) ->
  write_boozmn S version x w = IOk tt w1 -> usable (wO v) -> open_ok v -> wFS v x = wFS w1 x -> lucky S v ->
  exists v1, read_boozmn S x v = IOk tt v1.
Proof. exact (fun S version x w w1 v W G1 G2 G3 G4 => read_again version x w w1 v W (conj G1 (conj G2 (conj G3 G4)))). Qed.
(** Objects with and without the fluxes, symmetric and not, meet the hypotheses of all three; [no_gaps] is the conjunction of
    the hypotheses of the third about the object. *)
Example C86_case : forall (S : Scalar) asy fl, (asy = true -> fl = true) -> exists x (w w1 v : world S),
  wf_obj (wO w) /\ no_gaps (wO w) /\ oB (wO w) B_asym = Some asy /\ (fl = true <-> asize (oA (wO w) A_phip) <> 0) /\
  write_boozmn S "0.0.8" x w = IOk tt w1 /\ usable (wO v) /\ open_ok v /\ wFS v x = wFS w1 x /\ lucky S v.
Proof. exact again_case. Qed.

Print Assumptions C86_fits.
Print Assumptions C86_never_refused.
Print Assumptions C86_read_again.

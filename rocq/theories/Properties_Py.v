(** C59-C61: sessions with the Python interface, copies of files, values passed on to files. *)
From Coq Require Import ZArith List String Bool Reals.
From Verif Require Import Scalar Prog Model Wp Func Spec RunThms FuncExt Vmec VmecSpec VmecThms Nc NcModel NcSpec NcVoc NcThms NcThms4 NcCopy
  DriverThms Py PySpec PyThms.
Import ListNotations.
Local Open Scope Z_scope.

(** ** C59 *)
Theorem C59_safe : forall (S : Scalar) version (s : script S) (w : world S),
  wO w = obj_new S -> open_ok w -> obeys version Empty s w ->
  forall why, play version s w <> Undefined why.
Proof. exact (@session_safe). Qed.
Theorem C59_run : forall (S : Scalar) version (s : script S) (w w1 : world S) k,
  wO w = obj_new S -> open_ok w -> obeys version Empty s w -> reaches version s w (Do Run k) w1 ->
  exists i w2, valid (wO w1) i /\ exec version Run w1 = IOk tt w2 /\
    forall o, valid o i -> exists o2 ev, run_ok o o2 ev /\ same_outputs (asym i) (wO w2) o2.
Proof. exact (@session_run). Qed.
Theorem C59_write : forall (S : Scalar) version (s : script S) (w w1 w2 : world S) x k,
  wO w = obj_new S -> open_ok w -> obeys version Empty s w ->
  reaches version s w (Do (Write x) k) w1 -> exec version (Write x) w1 = IOk tt w2 ->
  exists f d, wFS w2 x = Some (Whole f) /\ bfile S f d /\ bsane S d /\ bcomplete S f d.
Proof. exact (@session_write). Qed.
Example C59_case : forall (S : Scalar) asy q,
  wO (dworld S asy q) = obj_new S /\ open_ok (dworld S asy q) /\ obeys "0.0.8" Empty (session S) (dworld S asy q).
Proof. exact (fun S asy q => conj eq_refl (conj (desk_open S _ _ _) (session_obeys S asy q))). Qed.
Example C59_case_reaches : forall (S : Scalar) asy, exists k w1 k' w2 w3,
  reaches "0.0.8" (session S) (dworld S asy []) (Do Run k) w1 /\
  reaches "0.0.8" (session S) (dworld S asy []) (Do (Write "b.nc") k') w2 /\ exec "0.0.8" (Write "b.nc") w2 = IOk tt w3.
Proof. exact (@session_reaches). Qed.
(** After a failed read_boozmn the object is not usable for read_wout. *)
Theorem C59_recover_refuted : forall S : Scalar, exists version (w : world S) i d w1 m why,
  bfile S (no_jlist S) (bex S) /\ bsane S (bex S) /\ good_wout (wex S false false) (fofZ S 3) i d /\
  wFS w "b.nc" = Some (Whole (no_jlist S)) /\ wFS w "wout.nc" = Some (Whole (wex S false false)) /\
  wO w = obj_new S /\ open_ok w /\ lucky S w /\
  exec version (ReadBoozmn "b.nc") w = IThrow m w1 /\ (exists w2, exec version (ReadWout "wout.nc" false) w = IOk tt w2) /\
  play version (Do (ReadBoozmn "b.nc") (fun _ _ => Do (ReadWout "wout.nc" false) (fun _ _ => Stop))) w = Undefined why.
Proof. exact (@recover_refuted). Qed.
(** run() after read_boozmn() is not reported. *)
Theorem C59_rerun_refuted : forall S : Scalar, exists version (w : world S) w1 why,
  bfile S (bfile_of S (bex S)) (bex S) /\ bsane S (bex S) /\ bcomplete S (bfile_of S (bex S)) (bex S) /\
  wFS w "b.nc" = Some (Whole (bfile_of S (bex S))) /\ wO w = obj_new S /\ open_ok w /\ lucky S w /\
  exec version (ReadBoozmn "b.nc") w = IOk tt w1 /\
  play version (Do (ReadBoozmn "b.nc") (fun _ _ => Do Run (fun _ _ => Stop))) w = Undefined why.
Proof. exact (@rerun_refuted). Qed.

(** ** C60 *)
Theorem C60_copy_partial : forall (S : Scalar) version x y (w : world S) f d, (forall z : F S, fneg S (fneg S z) = z) ->
  wFS w x = Some (Whole f) -> copyable version f d -> open_ok w -> usable (wO w) -> lucky S w ->
  exists w1 w2 f', read_boozmn S x w = IOk tt w1 /\ write_boozmn S version y w1 = IOk tt w2 /\
    (forall z, z <> y -> wFS w2 z = wFS w z) /\ wFS w2 y = Some (Whole f') /\
    copied version (b_mnboz S d) (b_radius S d) (b_nsurf S d) (b_asym S d) f f' /\
    dcell f' "aspect_b" 0 = Some (oF (wO w) F_aspect) /\ (forall j, 0 <= j < b_radius S d -> dcell f' "beta_b" j = Some None).
Proof. exact copy_file. Qed.
Example C60_case : forall S : Scalar, copyable "0.0.8" (bfile_of S (bex S)) (bex S).
Proof. exact copyable_case. Qed.
Theorem C60_copy_refuted : exists version x y (w w1 w2 : world RS) f f' d,
  wFS w x = Some (Whole f) /\ copyable version f d /\ wO w = obj_new RS /\ open_ok w /\ lucky RS w /\
  read_boozmn RS x w = IOk tt w1 /\ write_boozmn RS version y w1 = IOk tt w2 /\ wFS w2 y = Some (Whole f') /\
  dcell f "aspect_b" 0 = Some (Some 3%R) /\ dcell f' "aspect_b" 0 = Some (Some 0%R) /\
  dcell f "beta_b" 1 = Some (Some 0%R) /\ dcell f' "beta_b" 1 = Some None.
Proof. exact copy_refuted. Qed.

(** ** C61 *)
Theorem C61_aspect : forall (S : Scalar) version x (w w' : world S) i, writable version (wO w) i -> open_ok w ->
  write_boozmn S version x w = IOk tt w' ->
  exists f, wFS w' x = Some (Whole f) /\ dcell f "aspect_b" 0 = Some (oF (wO w) F_aspect).
Proof. exact aspect_passed. Qed.
Theorem C61_flux_partial : forall (S : Scalar) version x (w : world S) i (o2 : obj S), (forall y : F S, fneg S (fneg S y) = y) ->
  writable version (wO w) i -> open_ok w -> lucky S w -> usable o2 ->
  has_fluxes (wO w) = true -> Some (oF (wO w) F_toroidal_flux) = elem (wO w) A_phi (nsin i) ->
  exists w1 w2, write_boozmn S version x w = IOk tt w1 /\ read_boozmn S x (setO w1 o2) = IOk tt w2 /\
    oF (wO w2) F_toroidal_flux = oF (wO w) F_toroidal_flux.
Proof. exact flux_passed. Qed.
Example C61_case : forall (S : Scalar) asy, exists o : obj S, writable "0.0.8" o (ex_inp S asy) /\ has_fluxes o = true /\
  Some (oF o F_toroidal_flux) = elem o A_phi (nsin (ex_inp S asy)).
Proof. exact flux_case. Qed.
Theorem C61_flux_refuted : exists version x (w w1 w2 : world RS) i,
  writable version (wO w) i /\ open_ok w /\ lucky RS w /\
  write_boozmn RS version x w = IOk tt w1 /\ read_boozmn RS x (setO w1 (obj_new RS)) = IOk tt w2 /\
  oF (wO w) F_toroidal_flux = Some 7%R /\ oF (wO w2) F_toroidal_flux = Some 0%R.
Proof. exact flux_refuted. Qed.

Print Assumptions C59_safe.
Print Assumptions C59_run.
Print Assumptions C59_write.
Print Assumptions C59_recover_refuted.
Print Assumptions C59_rerun_refuted.
Print Assumptions C60_copy_partial.
Print Assumptions C60_copy_refuted.
Print Assumptions C61_aspect.
Print Assumptions C61_flux_partial.
Print Assumptions C61_flux_refuted.

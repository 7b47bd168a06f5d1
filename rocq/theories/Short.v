(** Property C75: variables of a file that have fewer elements than the arrays they are read
    into. *)
From Coq Require Import ZArith List String Bool Lia.
From Verif Require Import Scalar Prog Model Wp Func Spec Vmec Nc NcModel NcSpec NcVoc NcThms NcThms4 ReadAll.
Import ListNotations.
Local Open Scope Z_scope.

Section Short.
Variable S : Scalar.

(** A boozmn file with one mode and two surfaces, whose |B| is [c] *)
Definition two_surf (c : Z) : bdat S :=
  mkBdat S 0 5 1 0 1 3 2 3 (fun _ => 0) (fun _ => 0) (fun j => 2 + j) (fun j => fofZ S j) (fun j => fofZ S (j + 2)) (fun j => fofZ S (j + 3))
    (fun j => fofZ S (j + 4)) (fun j => fofZ S (j + 5)) (fun j => fofZ S (j + 6)) (fun j => fofZ S (j + 7))
    (fun m k b => fofZ S c).
(** ... and one with |B| on the first surface only *)
Definition cut (c : Z) : ncfile S := replaced S (mkVar "bmnc_b" ["pack_rad"%string] [] (VDbl [Some (fofZ S c)])) (bfile_of S (two_surf c)).

Theorem short_refuted : exists x (w w' : world S), wO w = obj_new S /\ lucky S w /\ read_boozmn S x w = IOk tt w' /\
  elem2 (wO w') A_bmnc_b 0 0 = Some (Some (fofZ S 8)) /\ elem2 (wO w') A_bmnc_b 0 1 = Some None.
Proof.
  set (w := desk S (obj_new S) (shelf S (cut 8)) []).
  exists "b.nc"%string, w.
  destruct (okd_ex S (read_boozmn S "b.nc" w) (fun w' => elem2 (wO w') A_bmnc_b 0 0 = Some (Some (fofZ S 8)) /\ elem2 (wO w') A_bmnc_b 0 1 = Some None))
    as (w' & E & H).
  { vm_compute. auto. }
  exists w'. do 2 (split; [reflexivity|]). split; assumption.
Qed.

(** What is missing is taken from the file read before. *)
Lemma two_steps (m1 m2 : io S unit) (w : world S) (P : world S -> Prop) :
  (exists w', ibind m1 (fun _ => m2) w = IOk tt w' /\ P w') -> exists w1 w2, m1 w = IOk tt w1 /\ m2 w1 = IOk tt w2 /\ P w2.
Proof.
  intros (w' & E & H). unfold ibind in E. destruct (m1 w) as [[] w1|?|?|?]; try discriminate E. exists w1, w'. auto.
Qed.
Definition before_and_after : world S :=
  desk S (obj_new S) (fun x => if String.eqb x "a.nc" then Some (Whole (bfile_of S (two_surf 1))) else Some (Whole (cut 8))) [].
Theorem mixed_refuted : exists x y (w w1 w2 : world S), wO w = obj_new S /\ lucky S w /\ read_boozmn S x w = IOk tt w1 /\ read_boozmn S y w1 = IOk tt w2 /\
  wFS w y = Some (Whole (cut 8)) /\
  elem2 (wO w2) A_bmnc_b 0 0 = Some (Some (fofZ S 8)) /\ elem2 (wO w2) A_bmnc_b 0 1 = Some (Some (fofZ S 1)).
Proof.
  exists "a.nc"%string, "b.nc"%string, before_and_after.
  destruct (two_steps (read_boozmn S "a.nc") (read_boozmn S "b.nc") before_and_after
    (fun w' => elem2 (wO w') A_bmnc_b 0 0 = Some (Some (fofZ S 8)) /\ elem2 (wO w') A_bmnc_b 0 1 = Some (Some (fofZ S 1)))) as (w1 & w2 & E1 & E2 & H).
  { apply okd_ex. vm_compute. auto. }
  exists w1, w2. split; [reflexivity|]. split; [reflexivity|]. split; [exact E1|]. split; [exact E2|]. split; [reflexivity|exact H].
Qed.

(** read_wout: what is missing is read as an uninitialised variable. *)
Theorem wout_short_refuted : exists x (w : world S) f, wO w = obj_new S /\ wFS w x = Some (Whole f) /\ lucky S w /\
  has_numbers f "rmnc" /\ exists why, read_wout S x true w = IUB why.
Proof.
  exists "wout.nc"%string, (desk S (obj_new S) (shelf S (replaced S (mkVar "rmnc" ["one"%string] [] (VDbl [Some (fofZ S 1)])) (wex S false true))) []).
  eexists. do 3 (split; [reflexivity|]). split.
  - eexists. split; [vm_compute; reflexivity|]. exact Logic.I.
  - eexists. apply ubd_ex. vm_compute. reflexivity.
Qed.

Theorem stored_case : wf_obj (obj_new S) /\
  (exists w', read_boozmn S "b.nc" (desk S (obj_new S) (shelf S (bfile_of S (two_surf 1))) []) = IOk tt w') /\
  (exists w', read_boozmn S "b.nc" (desk S (obj_new S) (shelf S (cut 8)) []) = IOk tt w') /\
  (forall asy fl, exists w', read_wout S "wout" fl (desk S (obj_new S) (shelf S (wex S asy fl)) []) = IOk tt w').
Proof.
  split; [exact (proj1 (fresh_usable S))|]. split; [|split].
  - destruct (okd_ex S (read_boozmn S "b.nc" (desk S (obj_new S) (shelf S (bfile_of S (two_surf 1))) [])) (fun _ => True)) as (w & E & _); [vm_compute; exact Logic.I|eauto].
  - destruct (okd_ex S (read_boozmn S "b.nc" (desk S (obj_new S) (shelf S (cut 8)) [])) (fun _ => True)) as (w & E & _); [vm_compute; exact Logic.I|eauto].
  - intros [] []; (match goal with |- exists w', ?m = _ => destruct (okd_ex S m (fun _ => True)) as (w & E & _); [vm_compute; exact Logic.I|eauto] end).
Qed.
End Short.

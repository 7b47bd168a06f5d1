(** Property C79: two histories, and cases that meet the hypotheses. *)
From Coq Require Import ZArith List String Bool Lia.
From Verif Require Import Scalar Prog Model Wp Func FuncExt Spec Vmec Nc NcModel NcSpec NcVoc NcThms NcThms4 ReadAll Stored Short Written WrittenThm WrittenBack Sound SoundThms.
Import ListNotations.
Local Open Scope Z_scope.

Section Ex.
Variable S : Scalar.

(** The results of a transformation with [r] radial points, one mode and all surfaces, whose |B| is 8 *)
Definition results_of (la r : Z) : bdat S :=
  mkBdat S la 5 1 0 1 r (r - 1) r (fun _ => 0) (fun _ => 0) (fun j => 2 + j) (fun j => fofZ S (j + 40)) (fun j => fofZ S (j + 50)) (fun j => fofZ S (j + 60))
    (fun j => fofZ S (j + 4)) (fun j => fofZ S (j + 5)) (fun j => fofZ S (j + 6)) (fun j => fofZ S (j + 7))
    (fun m k b => fofZ S 8).
(** They are in "a.nc", another equilibrium is in "wout.nc" *)
Definition both (la r : Z) : world S :=
  desk S (obj_new S) (fun x => if String.eqb x "a.nc" then Some (Whole (bfile_of S (results_of la r))) else if String.eqb x "wout.nc" then Some (Whole (wex S false false)) else None) [].

Lemma three_steps (m1 m2 m3 : io S unit) (w : world S) (P : world S -> world S -> world S -> Prop) :
  match m1 w with IOk _ w1 => match m2 w1 with IOk _ w2 => match m3 w2 with IOk _ w3 => P w1 w2 w3 | _ => False end | _ => False end | _ => False end ->
  exists w1 w2 w3, m1 w = IOk tt w1 /\ m2 w1 = IOk tt w2 /\ m3 w2 = IOk tt w3 /\ P w1 w2 w3.
Proof.
  intros H. destruct (m1 w) as [[] w1| | |] eqn:E1; try contradiction. destruct (m2 w1) as [[] w2| | |] eqn:E2; try contradiction.
  destruct (m3 w2) as [[] w3| | |] eqn:E3; try contradiction. exists w1, w2, w3. auto.
Qed.
Definition file_has (w : world S) x y (v : ncval S) : Prop := match wFS w x with Some (Whole f) => match find_var f y with Some u => vr_val u = v | None => False end | _ => False end.
Lemma file_has_ex w x l : Forall (fun p => file_has w x (fst p) (snd p)) l -> l <> [] ->
  exists f, wFS w x = Some (Whole f) /\ forall y v, In (y, v) l -> exists ds, holds f y ds v.
Proof.
  intros H N. unfold file_has in H. destruct (wFS w x) as [[f|]|]; [|destruct l; [congruence|inversion H; contradiction]..].
  exists f. split; [reflexivity|]. intros y v Hin. rewrite Forall_forall in H. specialize (H _ Hin). cbn in H. unfold holds.
  destruct (find_var f y) as [u|]; [|contradiction]. exists (vr_dims u), u. auto.
Qed.

(** The file has the field strength of one equilibrium and the rotational transform of another. *)
Theorem mixture_written : exists a b c (w w1 w2 w3 : world S) f, wO w = obj_new S /\ lucky S w /\
  read_boozmn S a w = IOk tt w1 /\ read_wout S b false w1 = IOk tt w2 /\ write_boozmn S "0.0.8" c w2 = IOk tt w3 /\
  adata (oA (wO w1) A_iota) = [Some (fofZ S 41); Some (fofZ S 42); Some (fofZ S 43)] /\
  adata (oA (wO w2) A_iota) = [Some (fofZ S 2); Some (fofZ S 3); Some (fofZ S 4)] /\
  wFS w3 c = Some (Whole f) /\
  (exists ds, holds f "bmnc_b" ds (VDbl [Some (fofZ S 8); Some (fofZ S 8); Some (fofZ S 8)])) /\
  (exists ds, holds f "iota_b" ds (VDbl [Some (fofZ S 0); Some (fofZ S 2); Some (fofZ S 3); Some (fofZ S 4)])).
Proof.
  destruct (three_steps (read_boozmn S "a.nc") (read_wout S "wout.nc" false) (write_boozmn S "0.0.8" "c.nc") (both 0 4) (fun w1 w2 w3 =>
    adata (oA (wO w1) A_iota) = [Some (fofZ S 41); Some (fofZ S 42); Some (fofZ S 43)] /\
    adata (oA (wO w2) A_iota) = [Some (fofZ S 2); Some (fofZ S 3); Some (fofZ S 4)] /\
    file_has w3 "c.nc" "bmnc_b" (VDbl [Some (fofZ S 8); Some (fofZ S 8); Some (fofZ S 8)]) /\
    file_has w3 "c.nc" "iota_b" (VDbl [Some (fofZ S 0); Some (fofZ S 2); Some (fofZ S 3); Some (fofZ S 4)]))) as (w1 & w2 & w3 & E1 & E2 & E3 & H1 & H2 & H3 & H4).
  { vm_compute. auto. }
  destruct (file_has_ex w3 "c.nc" [("bmnc_b", VDbl [Some (fofZ S 8); Some (fofZ S 8); Some (fofZ S 8)]); ("iota_b", VDbl [Some (fofZ S 0); Some (fofZ S 2); Some (fofZ S 3); Some (fofZ S 4)])]%string)
    as (f & Ef & Hf); [repeat constructor; assumption|discriminate|].
  exists "a.nc"%string, "wout.nc"%string, "c.nc"%string, (both 0 4), w1, w2, w3, f. split; [reflexivity|]. split; [reflexivity|].
  do 6 (split; [assumption|]). split; apply Hf; cbn; auto.
Qed.

(** With another number of surfaces the write reads beyond the end of an array. *)
Theorem other_size_unsafe : exists a b c (w w1 w2 : world S) why, wO w = obj_new S /\ lucky S w /\
  read_boozmn S a w = IOk tt w1 /\ read_wout S b false w1 = IOk tt w2 /\ write_boozmn S "0.0.8" c w2 = IUB why.
Proof.
  exists "a.nc"%string, "wout.nc"%string, "c.nc"%string, (both 0 3).
  assert (H : match read_boozmn S "a.nc" (both 0 3) with IOk _ w1 => match read_wout S "wout.nc" false w1 with IOk _ w2 =>
     match write_boozmn S "0.0.8" "c.nc" w2 with IUB _ => True | _ => False end | _ => False end | _ => False end) by (vm_compute; exact Logic.I).
  destruct (read_boozmn S "a.nc" (both 0 3)) as [[] w1| | |] eqn:E1; try contradiction. destruct (read_wout S "wout.nc" false w1) as [[] w2| | |] eqn:E2; try contradiction.
  destruct (write_boozmn S "0.0.8" "c.nc" w2) as [| |why|] eqn:E3; try contradiction. exists w1, w2, why. repeat split; assumption.
Qed.

(** Objects with and without the fluxes, symmetric and not, are written, and the files can be read. *)
Theorem written_case : forall asy fl, (asy = true -> fl = true) -> exists x (w w1 v v1 : world S),
  wf_obj (wO w) /\ oB (wO w) B_asym = Some asy /\ (fl = true <-> asize (oA (wO w) A_phip) <> 0) /\
  write_boozmn S "0.0.8" x w = IOk tt w1 /\ wO v = obj_new S /\ wf_obj (wO v) /\ wFS v x = wFS w1 x /\ read_boozmn S x v = IOk tt v1.
Proof.
  intros asy fl Hc.
  destruct (three_steps (fun w => match read_boozmn S "a.nc" w with IOk _ w1 => if fl then IOk tt w1 else read_wout S "wout.nc" false w1 | r => r end)
    (write_boozmn S "0.0.8" "c.nc") (fun w => read_boozmn S "c.nc" (setO w (obj_new S)))
    (both (if asy then 1 else 0) 4) (fun w1 w2 w3 => oB (wO w1) B_asym = Some asy /\ (asize (oA (wO w1) A_phip) =? 0) = negb fl)) as (w1 & w2 & w3 & E1 & E2 & E3 & H1 & H2).
  { destruct asy, fl; try discriminate (Hc eq_refl); vm_compute; auto. }
  exists "c.nc"%string, w1, w2, (setO w2 (obj_new S)), w3. split; [|split; [exact H1|split; [|split; [exact E2|split; [reflexivity|split; [apply obj_new_wf|split; [reflexivity|exact E3]]]]]]].
  - destruct (read_boozmn S "a.nc" (both (if asy then 1 else 0) 4)) as [[] w0| | |] eqn:E0; try discriminate E1.
    assert (W0 : tidy (wO w0)) by (pose proof (tends_boozmn "a.nc" (both (if asy then 1 else 0) 4) tidy_new) as G; rewrite E0 in G; apply G).
    apply tidy_wf. destruct fl; [now injection E1 as <-|]. pose proof (tends_wout "wout.nc" false w0 W0) as G. rewrite E1 in G. apply G.
  - destruct (Z.eqb_spec (asize (oA (wO w1) A_phip)) 0), fl; cbn in H2; try discriminate H2; split; congruence.
Qed.
End Ex.

(** Concrete inputs that meet the hypotheses of the theorems in real arithmetic. *)
From Coq Require Import ZArith QArith List String Bool Lia Reals Lra Psatz.
From Verif Require Import Scalar Prog Model Wp Func Step TrigProof InitProof SurfProof RunProof Par FuncExt Spec RunThms
  RSum RSpec RPoint RQuad RThms RThms2 RThms3.
Import ListNotations.
Local Open Scope Z_scope.

Lemma ok_valid S (i : Inp S) : ok_inp i -> valid (obj_of i) i.
Proof.
  intros H. pose proof (ok_mnmax _ _ H). pose proof (ok_mnmaxq _ _ H). pose proof (ok_nsin _ _ H). pose proof (ok_nsurf _ _ H).
  split; [auto|split; [apply obj_of_repr|apply obj_of_wf]; lia].
Qed.

Local Open Scope R_scope.
(** the input [ex_inp] with other lambda, B_theta and B_zeta *)
Definition ex_field (asy : bool) (ls lc us vs uc vc : Z -> Z -> R) : Inp RS :=
  let i := ex_inp RS asy in
  mkInp RS (asym i) (nfp i) (mpol i) (ntor i) (mnmax i) (mpolq i) (ntorq i) (mnmaxq i) (nsin i) (mboz i) (nboz i) (verb i)
    (xm i) (xn i) (xmq i) (xnq i) (nsurf i) (surf i) (sin_ i) (iota i)
    (rmnc i) (zmns i) ls (bmnc i) uc vc (rmns i) (zmnc i) lc (bmns i) us vs.
Lemma ex_field_ok asy ls lc us vs uc vc : ok_inp (ex_field asy ls lc us vs uc vc).
Proof. destruct (ex_ok RS asy). constructor; assumption. Qed.

Lemma ex_div asy : nfp_divides (ex_inp RS asy).
Proof.
  split; intros k Hk.
  - exists k. cbn. lia.
  - change (0 <= k < 3)%Z in Hk. pattern k. apply (ex_range3 k _ Hk); cbn; [exists 0%Z|exists (-1)%Z|exists 1%Z]; reflexivity.
Qed.
Lemma ex_one00 asy : at_most_one_00 (ex_inp RS asy).
Proof. intros k k' _ _ H _ H' _. cbn in *. congruence. Qed.

Ltac eqbs := repeat match goal with |- context [Z.eqb ?a ?b] =>
  let v := eval vm_compute in (Z.eqb a b) in change (Z.eqb a b) with v end; cbv iota.

(** C13: B_zeta from B_theta, so that m B_zeta = - n B_theta for each harmonic *)
Definition ex_u (a k js : Z) : R := IZR (a + k + js).
Definition ex_v (a g k js : Z) : R :=
  if Z.eqb k 0 then IZR g else if Z.eqb k 1 then 2 * ex_u a k js else - ex_u a k js.
Definition ex_phys : Inp RS :=
  ex_field true (ex_coef RS 3) (ex_coef RS 9) (ex_u 7) (ex_v 7 0) (ex_u 5) (ex_v 5 40).
Lemma ex_phys_ok : valid (obj_of ex_phys) ex_phys /\ at_most_one_00 ex_phys /\ nfp_divides ex_phys /\
  forall b, (0 <= b < nsurf ex_phys)%Z -> no_radial_current ex_phys (surf ex_phys b) /\
    bG ex_phys (surf ex_phys b) + iota ex_phys (surf ex_phys b) * bI ex_phys (surf ex_phys b) <> 0.
Proof.
  split; [apply ok_valid, ex_field_ok|]. split; [exact (ex_one00 true)|]. split; [exact (ex_div true)|].
  intros b Hb. change (0 <= b < 2)%Z in Hb. split.
  - intros k Hk. change (0 <= k < 3)%Z in Hk. pattern k. apply (ex_range3 k _ Hk);
      (split; [|intros _]); cbn [ex_phys ex_field ex_inp xmq xnq bsubumnc bsubvmnc bsubumns bsubvmns Z.eqb Pos.eqb];
      unfold ex_v; eqbs; rs; match goal with |- @eq _ ?x ?y => change (@eq R x y) end; lra.
  - pattern b. apply (ex_range2 b _ Hb).
    + change (40 + 3 * IZR 7 <> 0). lra.
    + change (40 + 1 * IZR 5 <> 0). lra.
Qed.

(** C16: lambda = 0, B_theta and B_zeta constant *)
Definition ex_id (asy : bool) : Inp RS :=
  ex_field asy (fun _ _ => 0) (fun _ _ => 0) (fun _ _ => 0) (fun _ _ => 0)
    (fun k _ => if Z.eqb k 0 then 2 else 0) (fun k _ => if Z.eqb k 0 then 7 else 0).
Lemma ex_id_ok asy : valid (obj_of (ex_id asy)) (ex_id asy) /\ nfp_divides (ex_id asy) /\
  no_alias (ex_id asy) 2 (xm (ex_id asy)) (xn (ex_id asy)) /\ no_alias (ex_id asy) 3 (xmq (ex_id asy)) (xnq (ex_id asy)) /\
  canonical 2 (xm (ex_id asy)) (xn (ex_id asy)) /\ canonical 3 (xmq (ex_id asy)) (xnq (ex_id asy)) /\
  forall js, in_boozer (ex_id asy) js /\ bG (ex_id asy) js = 7 /\ bI (ex_id asy) js = 2.
Proof.
  split; [apply ok_valid, ex_field_ok|]. split; [exact (ex_div asy)|]. splits.
  - intros k Hk. pattern k. apply (ex_range2 k _ Hk); vm_compute; repeat split; discriminate.
  - intros k Hk. pattern k. apply (ex_range3 k _ Hk); vm_compute; repeat split; discriminate.
  - split.
    + intros k Hk. cbn. lia.
    + intros k l _ _ H _. exact H.
  - split.
    + intros k Hk. pattern k. apply (ex_range3 k _ Hk); vm_compute; auto. right. split; [reflexivity|discriminate].
    + intros k l _ _ H _. exact H.
  - intros js. splits; try reflexivity. split; [auto|]. intros k Hk H. cbn in H.
    cbn. destruct (Z.eqb_spec k 0) as [->|]; [exfalso; vm_compute in H; destruct H as [H|H]; apply H; reflexivity|auto].
Qed.

(** C17 *)
Lemma ex_asym_ok : valid (obj_of (as_asym (ex_inp RS false))) (as_asym (ex_inp RS false)).
Proof. apply ok_valid. destruct (ex_ok RS true). constructor; assumption. Qed.
(** C18 *)
Lemma ex_scale_ok c : valid (obj_of (scale_field c ex_phys)) (scale_field c ex_phys).
Proof. apply ok_valid. destruct (ex_ok RS true). constructor; assumption. Qed.
(** C19 *)
Definition ex_rzb (a : Z) : rzb :=
  mkRzb (ex_coef RS a) (ex_coef RS (a + 1)) (ex_coef RS (a + 2)) (ex_coef RS (a + 3)) (ex_coef RS (a + 4)) (ex_coef RS (a + 5)).
Lemma ex_rzb_ok x : valid (obj_of (with_rzb (ex_inp RS true) x)) (with_rzb (ex_inp RS true) x).
Proof. apply ok_valid. destruct (ex_ok RS true). constructor; assumption. Qed.
(** C22: the two geometric modes and Nyquist modes 1, 2 exchanged *)
Definition ex_p (k : Z) : Z := (1 - k)%Z.
Definition ex_q (k : Z) : Z := if Z.eqb k 0 then 0%Z else (3 - k)%Z.
Lemma ex_perm : perm_of 2 ex_p /\ perm_of 3 ex_q /\ ex_q 0 = 0%Z /\ ex_p 0 <> 0%Z /\ ex_q 1 <> 1%Z.
Proof.
  unfold perm_of, ex_p, ex_q. splits; try (vm_compute; discriminate); try reflexivity; try (intros; lia).
  - intros k Hk. destruct (Z.eqb_spec k 0); lia.
  - intros k l Hk Hl. destruct (Z.eqb_spec k 0), (Z.eqb_spec l 0); lia.
Qed.
Lemma ex_permute_ok : valid (obj_of (permute ex_p ex_q (ex_inp RS true))) (permute ex_p ex_q (ex_inp RS true)).
Proof.
  apply ok_valid. destruct (ex_ok RS true). constructor; try assumption.
  - intros k Hk. apply ok_xm. unfold ex_p. cbn in *. lia.
  - intros k Hk. apply ok_xn. unfold ex_p. cbn in *. lia.
  - intros k Hk. apply ok_xmq. unfold ex_q. cbn in *. destruct (Z.eqb_spec k 0); lia.
  - intros k Hk. apply ok_xnq. unfold ex_q. cbn in *. destruct (Z.eqb_spec k 0); lia.
Qed.
(** C23: geometric mode 1 and Nyquist mode 2 have zero coefficients; [x2] is the poloidal
    mode number of Nyquist mode 2, whose toroidal mode number is 0. *)
Definition first (n : Z) (f : Z -> Z -> R) : Z -> Z -> R := fun k j => if Z.ltb k n then f k j else 0.
Definition ex_pad (x2 : Z) : Inp RS :=
  let i := ex_inp RS true in
  mkInp RS true (nfp i) (mpol i) (ntor i) 2 (mpolq i) (ntorq i) 3 (nsin i) (mboz i) (nboz i) (verb i)
    (xm i) (xn i) (fun k => if Z.eqb k 2 then x2 else k) (fun k => if Z.eqb k 1 then 2%Z else 0%Z) (nsurf i) (surf i) (sin_ i) (iota i)
    (first 1 (rmnc i)) (first 1 (zmns i)) (first 1 (lmns i)) (first 2 (bmnc i)) (first 2 (bsubumnc i)) (first 2 (bsubvmnc i))
    (first 1 (rmns i)) (first 1 (zmnc i)) (first 1 (lmnc i)) (first 2 (bmns i)) (first 2 (bsubumns i)) (first 2 (bsubvmns i)).
Lemma ex_pad_ok x2 : (0 <= x2 <= 2)%Z ->
  valid (obj_of (ex_pad x2)) (ex_pad x2) /\ nfp_divides (ex_pad x2) /\ zero_from 1 2 (ex_pad x2) /\
  valid (obj_of (cut 1 2 (ex_pad x2))) (cut 1 2 (ex_pad x2)).
Proof.
  intros Hx. assert (Hok : ok_inp (ex_pad x2)).
  { destruct (ex_ok RS true). constructor; try assumption.
    - intros k Hk. change (0 <= k < 3)%Z in Hk. change (0 <= (if Z.eqb k 2 then x2 else k) <= 2)%Z.
      destruct (Z.eqb_spec k 2); lia.
    - intros k Hk. change (0 <= k < 3)%Z in Hk. pattern k. apply (ex_range3 k _ Hk); vm_compute; repeat split; discriminate. }
  splits.
  - now apply ok_valid.
  - split; intros k Hk.
    + exists k. cbn. lia.
    + cbn. destruct (Z.eqb k 1); [exists 1%Z|exists 0%Z]; reflexivity.
  - intros j Hj. unfold ex_pad, first. split; intros k Hk; cbn in *; destruct (Z.ltb_spec k 1), (Z.ltb_spec k 2); try lia; intuition auto.
  - apply ok_valid. destruct Hok. constructor; try assumption; try (cbn; unfold INT_MAX; lia).
    all: intros k Hk; change (mnmax (cut 1 2 (ex_pad x2))) with 1%Z in *; change (mnmaxq (cut 1 2 (ex_pad x2))) with 2%Z in *;
      first [apply (ok_xm k)|apply (ok_xn k)|apply (ok_xmq k)|apply (ok_xnq k)]; cbn; lia.
Qed.
Lemma ex_pad_not00 k : (2 <= k < mnmaxq (ex_pad 1))%Z -> xmq (ex_pad 1) k <> 0%Z \/ xnq (ex_pad 1) k <> 0%Z.
Proof. intros Hk. cbn in Hk. assert (k = 2)%Z as -> by lia. left. discriminate. Qed.

(** C23: a second (0,0) mode, with zero coefficients *)
Theorem zero_00_mode : exists (o o' : obj RS) i r e r' e',
  valid o i /\ nfp_divides i /\ zero_from 1 2 i /\ valid o' (cut 1 2 i) /\ run_ok o r e /\ run_ok o' r' e' /\
  elem r A_Boozer_I 0 = Some (Some 0) /\ elem r A_Boozer_G 0 = Some (Some 0) /\
  elem r' A_Boozer_I 0 = Some (Some 7) /\ elem r' A_Boozer_G 0 = Some (Some 8).
Proof.
  destruct (ex_pad_ok 0 ltac:(lia)) as (V & D & Z0 & V').
  destruct (run_total _ _ V) as (r & E & _ & _ & _ & Q & _). destruct (run_total _ _ V') as (r' & E' & _ & _ & _ & Q' & _).
  do 2 eexists. exists (ex_pad 0), r. eexists. exists r'. eexists.
  assert (B : (0 <= 0 < 2)%Z) by lia.
  splits; eauto.
  - rewrite (elem_vec _ _ _ _ _ (q_I _ _ _ Q) B). reflexivity.
  - rewrite (elem_vec _ _ _ _ _ (q_G _ _ _ Q) B). reflexivity.
  - rewrite (elem_vec _ _ _ _ _ (q_I _ _ _ Q') B). reflexivity.
  - rewrite (elem_vec _ _ _ _ _ (q_G _ _ _ Q') B). reflexivity.
Qed.

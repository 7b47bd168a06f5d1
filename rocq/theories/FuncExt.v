(** The functions of Func.v only look at the modes, the resolution and one surface; objects
    holding given inputs exist. *)
From Coq Require Import ZArith QArith List String Bool Lia.
From Verif Require Import Scalar Prog Model Wp Func Step TrigProof InitProof SurfProof RunProof.
Import ListNotations.
Local Open Scope Z_scope.

Section Ext.
Context {S : Scalar}.
Notation F := (F S).

(** Same mode lists and resolution.  ns_in, compute_surfs, mpol, ntor, mpol_nyq, ntor_nyq,
    s_in and verbose may differ. *)
Record same_setup (i i' : Inp S) : Prop := mkSetup {
  ss_asym : asym i = asym i';
  ss_nfp : nfp i = nfp i';
  ss_mnmax : mnmax i = mnmax i';
  ss_mnmaxq : mnmaxq i = mnmaxq i';
  ss_mboz : mboz i = mboz i';
  ss_nboz : nboz i = nboz i';
  ss_xm : forall k, 0 <= k < mnmax i -> xm i k = xm i' k;
  ss_xn : forall k, 0 <= k < mnmax i -> xn i k = xn i' k;
  ss_xmq : forall k, 0 <= k < mnmaxq i -> xmq i k = xmq i' k;
  ss_xnq : forall k, 0 <= k < mnmaxq i -> xnq i k = xnq i' k
}.

(** Same data on surface [js] of the first and surface [js'] of the second. *)
Record same_surface (i : Inp S) (js : Z) (i' : Inp S) (js' : Z) : Prop := mkSurf {
  su_iota : iota i js = iota i' js';
  su_rmnc : forall k, 0 <= k < mnmax i -> rmnc i k js = rmnc i' k js';
  su_zmns : forall k, 0 <= k < mnmax i -> zmns i k js = zmns i' k js';
  su_lmns : forall k, 0 <= k < mnmax i -> lmns i k js = lmns i' k js';
  su_bmnc : forall k, 0 <= k < mnmaxq i -> bmnc i k js = bmnc i' k js';
  su_bsubumnc : forall k, 0 <= k < mnmaxq i -> bsubumnc i k js = bsubumnc i' k js';
  su_bsubvmnc : forall k, 0 <= k < mnmaxq i -> bsubvmnc i k js = bsubvmnc i' k js';
  su_rmns : asym i = true -> forall k, 0 <= k < mnmax i -> rmns i k js = rmns i' k js';
  su_zmnc : asym i = true -> forall k, 0 <= k < mnmax i -> zmnc i k js = zmnc i' k js';
  su_lmnc : asym i = true -> forall k, 0 <= k < mnmax i -> lmnc i k js = lmnc i' k js';
  su_bmns : asym i = true -> forall k, 0 <= k < mnmaxq i -> bmns i k js = bmns i' k js';
  su_bsubumns : asym i = true -> forall k, 0 <= k < mnmaxq i -> bsubumns i k js = bsubumns i' k js';
  su_bsubvmns : asym i = true -> forall k, 0 <= k < mnmaxq i -> bsubvmns i k js = bsubvmns i' k js'
}.

Section Two.
Variables (i i' : Inp S) (js js' : Z).
Hypothesis HS : same_setup i i'.
Hypothesis HU : same_surface i js i' js'.

Lemma e_ntheta : ntheta i = ntheta i'. Proof. unfold ntheta. now rewrite (ss_mboz _ _ HS). Qed.
Lemma e_nzeta : nzeta i = nzeta i'. Proof. unfold nzeta. now rewrite (ss_nboz _ _ HS). Qed.
Lemma e_nu2 : nu2 i = nu2 i'. Proof. unfold nu2. now rewrite e_ntheta. Qed.
Lemma e_nu3 : nu3 i = nu3 i'. Proof. unfold nu3. now rewrite e_ntheta, e_nu2, (ss_asym _ _ HS). Qed.
Lemma e_npts : npts i = npts i'. Proof. unfold npts. now rewrite e_nu3, e_nzeta. Qed.
Lemma e_mnboz : mnboz i = mnboz i'. Proof. unfold mnboz. now rewrite (ss_mboz _ _ HS), (ss_nboz _ _ HS). Qed.
Lemma e_dtheta : dtheta i = dtheta i'. Proof. unfold dtheta. now rewrite e_nu3, (ss_asym _ _ HS). Qed.
Lemma e_dzeta : dzeta i = dzeta i'. Proof. unfold dzeta. now rewrite e_nzeta, (ss_nfp _ _ HS). Qed.
Lemma e_thg j : thg i j = thg i' j. Proof. unfold thg. now rewrite e_nzeta, e_dtheta. Qed.
Lemma e_zeg j : zeg i j = zeg i' j. Proof. unfold zeg. now rewrite e_nzeta, e_dzeta. Qed.
Lemma e_xm_b k : xm_b i k = xm_b i' k. Proof. unfold xm_b, mode_m. now rewrite (ss_nboz _ _ HS). Qed.
Lemma e_xn_b k : xn_b i k = xn_b i' k.
Proof. unfold xn_b, mode_n. now rewrite (ss_nboz _ _ HS), (ss_nfp _ _ HS). Qed.

Lemma e_bI : bI i js = bI i' js'.
Proof.
  unfold bI. rewrite <- (ss_mnmaxq _ _ HS). apply accum_ext. intros k a Hk. unfold is00.
  now rewrite (ss_xmq _ _ HS), (ss_xnq _ _ HS), (su_bsubumnc _ _ _ _ HU) by auto.
Qed.
Lemma e_bG : bG i js = bG i' js'.
Proof.
  unfold bG. rewrite <- (ss_mnmaxq _ _ HS). apply accum_ext. intros k a Hk. unfold is00.
  now rewrite (ss_xmq _ _ HS), (ss_xnq _ _ HS), (su_bsubvmnc _ _ _ _ HU) by auto.
Qed.
Lemma e_wmns k : 0 <= k < mnmaxq i -> wmns i js k = wmns i' js' k.
Proof.
  intros Hk. unfold wmns.
  now rewrite (ss_xmq _ _ HS), (ss_xnq _ _ HS), (su_bsubvmnc _ _ _ _ HU), (su_bsubumnc _ _ _ _ HU) by auto.
Qed.
Lemma e_wmnc k : asym i = true -> 0 <= k < mnmaxq i -> wmnc i js k = wmnc i' js' k.
Proof.
  intros Ha Hk. unfold wmnc.
  now rewrite (ss_xmq _ _ HS), (ss_xnq _ _ HS), (su_bsubvmns _ _ _ _ HU), (su_bsubumns _ _ _ _ HU) by auto.
Qed.
Lemma e_fsum n n' (s s' a a' : Z -> F) : n = n' ->
  (forall k, 0 <= k < n -> s k = s' k) -> (asym i = true -> forall k, 0 <= k < n -> a k = a' k) ->
  fsum i n s a = fsum i' n' s' a'.
Proof.
  intros <- Hs Ha. unfold fsum. apply accum_ext. intros k x Hk. rewrite <- (ss_asym _ _ HS).
  rewrite (Hs k Hk). destruct (asym i); [|reflexivity]. now rewrite Ha by auto.
Qed.

Section Pt.
Variables th ze : F.
Ltac fs H := apply e_fsum; [apply H; exact HS| |];
  intros; rewrite ?(ss_nfp _ _ HS), ?(ss_xm _ _ HS), ?(ss_xn _ _ HS), ?(ss_xmq _ _ HS), ?(ss_xnq _ _ HS) by auto.
Lemma e_p_r : p_r i js th ze = p_r i' js' th ze.
Proof. unfold p_r. fs ss_mnmax. now rewrite (su_rmnc _ _ _ _ HU) by auto. now rewrite (su_rmns _ _ _ _ HU) by auto. Qed.
Lemma e_p_z : p_z i js th ze = p_z i' js' th ze.
Proof. unfold p_z. fs ss_mnmax. now rewrite (su_zmns _ _ _ _ HU) by auto. now rewrite (su_zmnc _ _ _ _ HU) by auto. Qed.
Lemma e_p_lam : p_lam i js th ze = p_lam i' js' th ze.
Proof. unfold p_lam. fs ss_mnmax. now rewrite (su_lmns _ _ _ _ HU) by auto. now rewrite (su_lmnc _ _ _ _ HU) by auto. Qed.
Lemma e_p_lt : p_lt i js th ze = p_lt i' js' th ze.
Proof. unfold p_lt. fs ss_mnmax. now rewrite (su_lmns _ _ _ _ HU) by auto. now rewrite (su_lmnc _ _ _ _ HU) by auto. Qed.
Lemma e_p_lz : p_lz i js th ze = p_lz i' js' th ze.
Proof. unfold p_lz. fs ss_mnmax. now rewrite (su_lmns _ _ _ _ HU) by auto. now rewrite (su_lmnc _ _ _ _ HU) by auto. Qed.
Lemma e_p_w : p_w i js th ze = p_w i' js' th ze.
Proof. unfold p_w. fs ss_mnmaxq. now rewrite e_wmns by auto. now rewrite e_wmnc by auto. Qed.
Lemma e_p_wt : p_wt i js th ze = p_wt i' js' th ze.
Proof. unfold p_wt. fs ss_mnmaxq. now rewrite e_wmns by auto. now rewrite e_wmnc by auto. Qed.
Lemma e_p_wz : p_wz i js th ze = p_wz i' js' th ze.
Proof. unfold p_wz. fs ss_mnmaxq. now rewrite e_wmns by auto. now rewrite e_wmnc by auto. Qed.
Lemma e_p_b : p_b i js th ze = p_b i' js' th ze.
Proof. unfold p_b. fs ss_mnmaxq. now rewrite (su_bmnc _ _ _ _ HU) by auto. now rewrite (su_bmns _ _ _ _ HU) by auto. Qed.
Lemma e_oGI : oGI i js = oGI i' js'.
Proof. unfold oGI. now rewrite e_bG, e_bI, (su_iota _ _ _ _ HU). Qed.
Lemma e_p_nu : p_nu i js th ze = p_nu i' js' th ze.
Proof. unfold p_nu. now rewrite e_oGI, e_bI, e_p_w, e_p_lam. Qed.
Lemma e_p_th : p_th i js th ze = p_th i' js' th ze.
Proof. unfold p_th. now rewrite e_p_lam, e_p_nu, (su_iota _ _ _ _ HU). Qed.
Lemma e_p_ze : p_ze i js th ze = p_ze i' js' th ze.
Proof. unfold p_ze. now rewrite e_p_nu. Qed.
Lemma e_p_jac : p_jac i js th ze = p_jac i' js' th ze.
Proof.
  unfold p_jac, p_nuz, p_nut.
  now rewrite e_oGI, e_bI, e_p_lt, e_p_lz, e_p_wt, e_p_wz, (su_iota _ _ _ _ HU).
Qed.
Lemma e_p_g : p_g i js th ze = p_g i' js' th ze.
Proof. unfold p_g. now rewrite e_p_b, e_bG, e_bI, (su_iota _ _ _ _ HU). Qed.
End Pt.

Lemma e_wgt j x : wgt i j x = wgt i' j x.
Proof. unfold wgt, half_pt. now rewrite (ss_asym _ _ HS), e_nzeta, e_nu2. Qed.
Lemma e_ff k : ff i k = ff i' k.
Proof. unfold ff, ff0. now rewrite (ss_asym _ _ HS), e_nzeta, e_nu2, e_ntheta. Qed.
Lemma e_bth j : bth i js j = bth i' js' j.
Proof. unfold bth. now rewrite e_thg, e_zeg, e_p_th. Qed.
Lemma e_bze j : bze i js j = bze i' js' j.
Proof. unfold bze. now rewrite e_thg, e_zeg, e_p_ze. Qed.
Lemma e_o_cos k j : o_cos i js k j = o_cos i' js' k j.
Proof.
  unfold o_cos. now rewrite !e_wgt, e_ff, e_bth, e_bze, e_xm_b, e_xn_b, e_thg, e_zeg, e_p_jac, (ss_nfp _ _ HS).
Qed.
Lemma e_o_sin k j : o_sin i js k j = o_sin i' js' k j.
Proof.
  unfold o_sin. now rewrite !e_wgt, e_ff, e_bth, e_bze, e_xm_b, e_xn_b, e_thg, e_zeg, e_p_jac, (ss_nfp _ _ HS).
Qed.
Lemma e_o_coef f k : o_coef i js f k = o_coef i' js' f k.
Proof.
  unfold o_coef. rewrite <- e_npts. apply accum_ext. intros j a Hj. f_equal.
  unfold o_inc. destruct f; try reflexivity;
    now rewrite ?e_o_cos, ?e_o_sin, ?e_thg, ?e_zeg, ?e_p_b, ?e_p_r, ?e_p_z, ?e_p_nu, ?e_p_g.
Qed.
End Two.

Lemma same_setup_refl i : same_setup i i.
Proof. constructor; auto. Qed.
Lemma same_surface_refl i js : same_surface i js i js.
Proof. constructor; auto. Qed.

(** ** Objects holding given inputs *)
Definition tab {T} (n : Z) (g : Z -> T) : array T :=
  mkArr n 1 (map (fun k => Some (g k)) (zseq 0 (Z.to_nat n))).
Definition tabm {T} (r c : Z) (g : Z -> Z -> T) : array T :=
  mkArr r c (map (fun k => Some (g (k mod r) (k / r))) (zseq 0 (Z.to_nat (r * c)))).

Lemma zseq_nth n : forall lo k, (k < n)%nat -> nth_error (zseq lo n) k = Some (lo + Z.of_nat k).
Proof.
  induction n as [|n IH]; intros lo k Hk; [lia|]. destruct k as [|k]; cbn.
  - f_equal. lia.
  - rewrite IH by lia. f_equal. lia.
Qed.
Lemma zseq_len lo n : List.length (zseq lo n) = n.
Proof. revert lo; induction n; intros; cbn; auto. Qed.
Lemma znth_tab {T} n (g : Z -> T) k : 0 <= k < n ->
  znth (map (fun k => Some (g k)) (zseq 0 (Z.to_nat n))) k = Some (Some (g k)).
Proof.
  intros Hk. unfold znth. destruct (Z.ltb_spec k 0); [lia|].
  rewrite nth_error_map, zseq_nth by lia. cbn. do 3 f_equal. lia.
Qed.
Lemma tab_is {T} n (g : Z -> T) : 0 <= n -> vec_is (tab n g) n g.
Proof.
  intros Hn. unfold vec_is, tab. cbn. splits; auto.
  - rewrite map_length, zseq_len. lia.
  - intros k Hk. now apply znth_tab.
Qed.
Lemma tabm_is {T} r c (g : Z -> Z -> T) : 0 <= r -> 0 <= c -> mat_is (tabm r c g) r c g.
Proof.
  intros Hr Hc. unfold mat_is, tabm. cbn. splits; auto.
  - rewrite map_length, zseq_len. nia.
  - intros k j Hk Hj. rewrite (znth_tab (r * c) (fun k => g (k mod r) (k / r))) by nia.
    rewrite Z.mod_add, Z.div_add, Z.mod_small, Z.div_small by lia. reflexivity.
Qed.

(** The object of a user who fills in the inputs [i] by hand on a new object. *)
Definition obj_of (i : Inp S) : obj S :=
  let n := obj_new S in
  mkObj
    (fun f => match f with
       | I_nfp => Some (nfp i) | I_mpol => Some (mpol i) | I_ntor => Some (ntor i)
       | I_mnmax => Some (mnmax i) | I_mpol_nyq => Some (mpolq i) | I_ntor_nyq => Some (ntorq i)
       | I_mnmax_nyq => Some (mnmaxq i) | I_ns_in => Some (nsin i)
       | I_mboz => Some (mboz i) | I_nboz => Some (nboz i) | I_verbose => Some (verb i)
       | _ => oI n f end)
    (fun f => match f with B_asym => Some (asym i) | _ => oB n f end)
    (oF n)
    (fun f => match f with
       | N_xm => tab (mnmax i) (xm i) | N_xn => tab (mnmax i) (xn i)
       | N_xm_nyq => tab (mnmaxq i) (xmq i) | N_xn_nyq => tab (mnmaxq i) (xnq i)
       | N_compute_surfs => tab (nsurf i) (surf i)
       | _ => oN n f end)
    (fun f => match f with
       | A_s_in => tab (nsin i) (sin_ i) | A_iota => tab (nsin i) (iota i)
       | A_rmnc => tabm (mnmax i) (nsin i) (rmnc i)
       | A_zmns => tabm (mnmax i) (nsin i) (zmns i)
       | A_lmns => tabm (mnmax i) (nsin i) (lmns i)
       | A_bmnc => tabm (mnmaxq i) (nsin i) (bmnc i)
       | A_bsubumnc => tabm (mnmaxq i) (nsin i) (bsubumnc i)
       | A_bsubvmnc => tabm (mnmaxq i) (nsin i) (bsubvmnc i)
       | A_rmns => if asym i then tabm (mnmax i) (nsin i) (rmns i) else oA n f
       | A_zmnc => if asym i then tabm (mnmax i) (nsin i) (zmnc i) else oA n f
       | A_lmnc => if asym i then tabm (mnmax i) (nsin i) (lmnc i) else oA n f
       | A_bmns => if asym i then tabm (mnmaxq i) (nsin i) (bmns i) else oA n f
       | A_bsubumns => if asym i then tabm (mnmaxq i) (nsin i) (bsubumns i) else oA n f
       | A_bsubvmns => if asym i then tabm (mnmaxq i) (nsin i) (bsubvmns i) else oA n f
       | _ => oA n f end).

Lemma obj_of_repr i : 0 <= mnmax i -> 0 <= mnmaxq i -> 0 <= nsin i -> 0 <= nsurf i ->
  repr (obj_of i) i.
Proof.
  intros H1 H2 H3 H4.
  constructor; cbn; auto using tab_is, tabm_is; intros ->; auto using tabm_is.
Qed.
Lemma wf_empty_mat {T} : wf_arr (@empty_mat T).
Proof. unfold wf_arr; cbn; lia. Qed.
Lemma wf_empty_vec {T} : wf_arr (@empty_vec T).
Proof. unfold wf_arr; cbn; lia. Qed.
Lemma obj_new_wf : wf_obj (obj_new S).
Proof.
  constructor; intros f; cbn.
  - split; auto using wf_empty_vec.
  - destruct f; auto using wf_empty_vec, wf_empty_mat.
Qed.
Lemma obj_of_wf i : 0 <= mnmax i -> 0 <= mnmaxq i -> 0 <= nsin i -> 0 <= nsurf i ->
  wf_obj (obj_of i).
Proof.
  intros H1 H2 H3 H4. constructor; intros f.
  - destruct f; cbn; split; auto using wf_empty_vec; eapply vec_is_wf; apply tab_is; auto.
  - destruct f; cbn; try destruct (asym i); auto using wf_empty_vec, wf_empty_mat;
      try (eapply vec_is_wf; apply tab_is; auto; fail); eapply mat_is_wf; apply tabm_is; auto.
Qed.
End Ext.

(** ** A concrete input: nfp = 2, two and three modes, three surfaces, results wanted on
    surfaces 2 and 0. *)
Definition ex_coef (S : Scalar) (a : Z) (k js : Z) : F S := fofZ S (a + 3 * k + js).
Definition ex_inp (S : Scalar) (asy : bool) : Inp S :=
  {| asym := asy; nfp := 2; mpol := 2; ntor := 1; mnmax := 2; mpolq := 2; ntorq := 1; mnmaxq := 3;
     nsin := 3; mboz := 2; nboz := 1; verb := 2;
     xm := fun k => k; xn := fun k => 2 * k;
     xmq := fun k => k; xnq := fun k => if k =? 1 then -2 else if k =? 2 then 2 else 0;
     nsurf := 2; surf := fun k => if k =? 0 then 2 else 0;
     sin_ := fun k => fofZ S k; iota := fun k => fofZ S (k + 1);
     rmnc := ex_coef S 1; zmns := ex_coef S 2; lmns := ex_coef S 3;
     bmnc := ex_coef S 4; bsubumnc := ex_coef S 5; bsubvmnc := ex_coef S 6;
     rmns := ex_coef S 7; zmnc := ex_coef S 8; lmnc := ex_coef S 9;
     bmns := ex_coef S 10; bsubumns := ex_coef S 11; bsubvmns := ex_coef S 12 |}.

Lemma ex_range2 (k : Z) (P : Z -> Prop) : 0 <= k < 2 -> P 0 -> P 1 -> P k.
Proof. intros H H0 H1. assert (k = 0 \/ k = 1) as [-> | ->] by lia; auto. Qed.
Lemma ex_range3 (k : Z) (P : Z -> Prop) : 0 <= k < 3 -> P 0 -> P 1 -> P 2 -> P k.
Proof. intros H H0 H1 H2. assert (k = 0 \/ k = 1 \/ k = 2) as [-> | [-> | ->]] by lia; auto. Qed.

Lemma ex_ok S asy : ok_inp (ex_inp S asy).
Proof.
  constructor; cbn [ex_inp nfp mpol ntor mnmax mpolq ntorq mnmaxq nsin mboz nboz nsurf xm xn xmq xnq surf];
    unfold INT_MAX; try (intros; lia);
    try (lazymatch goal with |- forall _, _ => idtac | _ => vm_compute; discriminate end).
  - intros k Hk. pattern k; apply (ex_range2 k _ Hk); vm_compute; repeat split; discriminate.
  - intros k Hk. pattern k; apply (ex_range3 k _ Hk); vm_compute; repeat split; discriminate.
  - intros k Hk. pattern k; apply (ex_range2 k _ Hk); vm_compute; repeat split; discriminate.
Qed.
Lemma ex_repr S asy : repr (obj_of (ex_inp S asy)) (ex_inp S asy).
Proof. apply obj_of_repr; cbn; lia. Qed.
Lemma ex_wf S asy : wf_obj (obj_of (ex_inp S asy)).
Proof. apply obj_of_wf; cbn; lia. Qed.

(** init() establishes the grids, tables, mode list and zeroed outputs. *)
From Coq Require Import ZArith List String Bool Lia.
From Verif Require Import Scalar Prog Model Wp Func Step TrigProof.
Import ListNotations.
Local Open Scope Z_scope.

Section Bounds.
Context {S : Scalar}.
Variable i : Inp S.
Hypothesis Hok : ok_inp i.

Lemma nzeta_pos : 1 <= nzeta i.
Proof. unfold nzeta. pose proof (ok_nboz _ _ Hok). zb; lia. Qed.
Lemma ntheta_ge : 6 <= ntheta i.
Proof. unfold ntheta. pose proof (ok_mboz _ _ Hok). lia. Qed.
Lemma nzeta_cases : (nboz i = 0 /\ nzeta i = 1) \/ (1 <= nboz i /\ nzeta i = 2 * (2 * nboz i + 1)).
Proof. unfold nzeta. pose proof (ok_nboz _ _ Hok). zb; lia. Qed.
Lemma nu2_eq : nu2 i = 2 * mboz i + 2.
Proof.
  unfold nu2, ntheta. rewrite Z.mul_comm, Z.div_mul by lia. lia.
Qed.
Lemma ntheta_le : ntheta i <= INT_MAX.
Proof. pose proof (ok_grid _ _ Hok). pose proof nzeta_pos. pose proof ntheta_ge. nia. Qed.
Lemma nzeta_le : nzeta i <= INT_MAX.
Proof. pose proof (ok_grid _ _ Hok). pose proof nzeta_pos. pose proof ntheta_ge. nia. Qed.
Lemma nboz_le : 2 * (2 * nboz i + 1) <= INT_MAX.
Proof. pose proof nzeta_le. destruct nzeta_cases as [[-> E]|[_ E]]; rewrite E in *; unfold INT_MAX in *; lia. Qed.
Lemma nu3_bounds : 4 <= nu3 i <= ntheta i.
Proof.
  pose proof ntheta_ge. pose proof nu2_eq. pose proof (ok_mboz _ _ Hok). unfold nu3.
  destruct (asym i); [lia|]. unfold ntheta in *. lia.
Qed.
Lemma npts_bounds : 4 <= npts i /\ npts i <= ntheta i * nzeta i.
Proof. pose proof nu3_bounds. pose proof nzeta_pos. unfold npts. nia. Qed.
Lemma npts_int : npts i <= INT_MAX.
Proof. pose proof npts_bounds. pose proof (ok_grid _ _ Hok). lia. Qed.
Lemma mnboz_pos : 1 <= mnboz i.
Proof. unfold mnboz. pose proof (ok_mboz _ _ Hok). pose proof (ok_nboz _ _ Hok). nia. Qed.
Lemma mnboz_alt : mnboz i = nboz i + 1 + (mboz i - 1) * (2 * nboz i + 1).
Proof. unfold mnboz. lia. Qed.
Lemma mnboz_le : 2 * mnboz i <= ntheta i * nzeta i.
Proof.
  pose proof (ok_mboz _ _ Hok). pose proof (ok_nboz _ _ Hok). unfold mnboz, ntheta.
  destruct nzeta_cases as [[-> ->]|[E ->]]; nia.
Qed.
Lemma nbnf_le n : - nboz i <= n <= nboz i -> INT_MIN <= n * nfp i <= INT_MAX.
Proof.
  intros Hn. pose proof (ok_gridz _ _ Hok). pose proof (ok_nfp _ _ Hok). pose proof nzeta_pos.
  destruct nzeta_cases as [[E1 E2]|[E E2]].
  - assert (n = 0) by lia. subst. unfold INT_MIN, INT_MAX. lia.
  - rewrite E2 in *. unfold INT_MIN, INT_MAX in *. nia.
Qed.
Lemma ntheta_half : ntheta i / 2 = 2 * mboz i + 1.
Proof. unfold ntheta. rewrite Z.mul_comm, Z.div_mul by lia. lia. Qed.
Lemma ntheta_quot : Z.quot (ntheta i) 2 = ntheta i / 2.
Proof. pose proof ntheta_ge. apply Z.quot_div_nonneg; lia. Qed.

(** The mode table *)
Lemma mode_at0 n : 0 <= n <= nboz i -> mode_m i n = 0 /\ mode_n i n = n.
Proof. intros. unfold mode_m, mode_n. zb. auto. Qed.
Lemma mode_at m n : 1 <= m -> - nboz i <= n <= nboz i ->
  mode_m i (nboz i + 1 + (m - 1) * (2 * nboz i + 1) + (n + nboz i)) = m /\
  mode_n i (nboz i + 1 + (m - 1) * (2 * nboz i + 1) + (n + nboz i)) = n.
Proof.
  intros Hm Hn. set (k := _ + (n + nboz i)).
  assert (E : k - (nboz i + 1) = (n + nboz i) + (m - 1) * (2 * nboz i + 1)) by (unfold k; lia).
  assert (~ k <= nboz i) by (unfold k; nia).
  unfold mode_m, mode_n. zb. rewrite E.
  rewrite Z.div_add, Z.mod_add by lia.
  rewrite Z.div_small, Z.mod_small by lia. lia.
Qed.
Lemma mode_m_bounds k : 0 <= k < mnboz i -> 0 <= mode_m i k <= mboz i - 1.
Proof.
  intros H. pose proof (ok_nboz _ _ Hok). pose proof (ok_mboz _ _ Hok). unfold mode_m.
  destruct (Z.leb_spec k (nboz i)); [lia|].
  split.
  - assert (0 <= (k - (nboz i + 1)) / (2 * nboz i + 1)) by (apply Z.div_pos; lia). lia.
  - assert ((k - (nboz i + 1)) / (2 * nboz i + 1) < mboz i - 1); [|lia].
    apply Z.div_lt_upper_bound; [lia|]. rewrite mnboz_alt in H. lia.
Qed.
Lemma mode_n_bounds k : 0 <= k < mnboz i -> - nboz i <= mode_n i k <= nboz i.
Proof.
  intros H. pose proof (ok_nboz _ _ Hok). unfold mode_n.
  destruct (Z.leb_spec k (nboz i)); [lia|].
  pose proof (Z.mod_pos_bound (k - (nboz i + 1)) (2 * nboz i + 1)). lia.
Qed.
Lemma kn_mode k : 0 <= k < mnboz i -> kn (nfp i) (xn_b i k) = Z.abs (mode_n i k).
Proof.
  intros H. pose proof (ok_nfp _ _ Hok). unfold kn, xn_b. rewrite Z.quot_mul by lia. reflexivity.
Qed.
End Bounds.

Lemma kn_alt nf n : 1 <= nf -> Z.quot (Z.abs n) nf = kn nf n.
Proof.
  intros. unfold kn. rewrite <- (Z.abs_eq nf) at 1 by lia. apply Z.quot_abs. lia.
Qed.
Lemma kn_nonneg nf n : 0 <= kn nf n.
Proof. unfold kn. lia. Qed.
Lemma quot_bound nf n : 1 <= nf -> Z.abs (Z.quot n nf) <= Z.abs n.
Proof.
  intros H. rewrite <- Z.quot_abs by lia. rewrite (Z.abs_eq nf) by lia.
  rewrite Z.quot_div_nonneg by lia. apply Z.div_le_upper_bound; [lia|nia].
Qed.

Section InitProof.
Variable S : Scalar.
Notation obj := (obj S).
Notation F := (F S).

(** Everything init() sets up and surface_solve only reads. *)
Record grid_ok (o : obj) (i : Inp S) : Prop := mkGrid {
  g_ntheta : oI o I_ntheta = Some (ntheta i);
  g_nzeta : oI o I_nzeta = Some (nzeta i);
  g_nu2 : oI o I_nu2_b = Some (nu2 i);
  g_nu3 : oI o I_nu3_b = Some (nu3 i);
  g_npts : oI o I_n_theta_zeta = Some (npts i);
  g_mnboz : oI o I_mnboz = Some (mnboz i);
  g_nsb : oI o I_ns_b = Some (nsurf i);
  g_dth : oF o F_d_theta = Some (dtheta i);
  g_dze : oF o F_d_zeta = Some (dzeta i);
  g_xmb : vec_is (oN o N_xm_b) (mnboz i) (xm_b i);
  g_xnb : vec_is (oN o N_xn_b) (mnboz i) (xn_b i);
  g_thg : vec_is (oA o A_theta_grid) (npts i) (thg i);
  g_zeg : vec_is (oA o A_zeta_grid) (npts i) (zeg i);
  g_cosm : mat_is (oA o A_cosm) (npts i) (mpol i) (fun j m => TC (thg i j) m);
  g_sinm : mat_is (oA o A_sinm) (npts i) (mpol i) (fun j m => TS (thg i j) m);
  g_cosn : mat_is (oA o A_cosn) (npts i) (ntor i + 1) (fun j n => TC (fofZ S (nfp i) * zeg i j)%sc n);
  g_sinn : mat_is (oA o A_sinn) (npts i) (ntor i + 1) (fun j n => TS (fofZ S (nfp i) * zeg i j)%sc n);
  g_cosmq : mat_is (oA o A_cosm_nyq) (npts i) (mpolq i + 1) (fun j m => TC (thg i j) m);
  g_sinmq : mat_is (oA o A_sinm_nyq) (npts i) (mpolq i + 1) (fun j m => TS (thg i j) m);
  g_cosnq : mat_is (oA o A_cosn_nyq) (npts i) (ntorq i + 1) (fun j n => TC (fofZ S (nfp i) * zeg i j)%sc n);
  g_sinnq : mat_is (oA o A_sinn_nyq) (npts i) (ntorq i + 1) (fun j n => TS (fofZ S (nfp i) * zeg i j)%sc n);
  g_sb : vec_is (oA o A_s_b) (nsurf i) (fun k => sin_ i (surf i k));
  g_Iall : vec_is (oA o A_Boozer_I_all) (nsin i) (fun j => bsubumnc i 0 j);
  g_Gall : vec_is (oA o A_Boozer_G_all) (nsin i) (fun j => bsubvmnc i 0 j)
}.

(** The outputs of the surface loop, zeroed. *)
Record zero_out (o : obj) (i : Inp S) : Prop := mkZero {
  z_I : vec_is (oA o A_Boozer_I) (nsurf i) (fun _ => f0 S);
  z_G : vec_is (oA o A_Boozer_G) (nsurf i) (fun _ => f0 S);
  z_out : forall f, In f (outs (asym i)) -> mat_is (oA o f) (mnboz i) (nsurf i) (fun _ _ => f0 S)
}.

(** The members that run() may change. *)
Definition chI (f : ifield) : bool :=
  match f with
  | I_nu2_b | I_nu3_b | I_ntheta | I_nzeta | I_n_theta_zeta | I_ns_b | I_mnboz => true
  | _ => false
  end.
Definition chF (f : ffield) : bool :=
  match f with F_d_theta | F_d_zeta => true | _ => false end.
Definition chN (f : nfield) : bool :=
  match f with N_xm_b | N_xn_b => true | _ => false end.
Definition chA (a : bool) (f : afield) : bool :=
  match f with
  | A_theta_grid | A_zeta_grid
  | A_cosm | A_sinm | A_cosn | A_sinn | A_cosm_nyq | A_sinm_nyq | A_cosn_nyq | A_sinn_nyq
  | A_s_b | A_Boozer_G | A_Boozer_G_all | A_Boozer_I | A_Boozer_I_all
  | A_bmnc_b | A_gmnc_b | A_rmnc_b | A_zmns_b | A_numns_b => true
  | A_bmns_b | A_gmns_b | A_rmns_b | A_zmnc_b | A_numnc_b => a
  | _ => false
  end.
Record run_frame (a : bool) (o o' : obj) : Prop := mkRF {
  rf_I : forall f, chI f = false -> oI o' f = oI o f;
  rf_B : forall f, oB o' f = oB o f;
  rf_F : forall f, chF f = false -> oF o' f = oF o f;
  rf_N : forall f, chN f = false -> oN o' f = oN o f;
  rf_A : forall f, chA a f = false -> oA o' f = oA o f
}.

Lemma run_frame_refl a o : run_frame a o o.
Proof. constructor; auto. Qed.
Lemma run_frame_trans a o1 o2 o3 : run_frame a o1 o2 -> run_frame a o2 o3 -> run_frame a o1 o3.
Proof.
  intros [A1 A2 A3 A4 A5] [B1 B2 B3 B4 B5]. constructor; intros.
  - rewrite B1 by auto; auto.
  - rewrite B2 by auto; auto.
  - rewrite B3 by auto; auto.
  - rewrite B4 by auto; auto.
  - rewrite B5 by auto; auto.
Qed.
Lemma run_frame_repr a o o' i : run_frame a o o' -> repr o i -> repr o' i.
Proof.
  intros [A1 A2 A3 A4 A5] R. destruct R.
  constructor; rewrite ?A1, ?A2, ?A4, ?A5 by (try reflexivity; destruct a; reflexivity); auto.
Qed.

Section WithInput.
Variable i : Inp S.
Hypothesis Hok : ok_inp i.

Lemma init_modes_spec P (o : obj) :
  wp P (init_modes S (mboz i) (nboz i) (nfp i) (mnboz i)) o (fun r o' ev => ev = [] /\ o' = o /\
    vec_is (fst r) (mnboz i) (xm_b i) /\ vec_is (snd r) (mnboz i) (xn_b i)).
Proof.
  pose proof (ok_mboz _ _ Hok) as Hm. pose proof (ok_nboz _ _ Hok) as Hn.
  pose proof (mnboz_pos i Hok) as Hmn. pose proof (mnboz_alt i) as Halt.
  pose proof (mnboz_le i Hok) as Hmle. pose proof (ok_grid _ _ Hok) as Hg.
  pose proof (ntheta_le i Hok) as Hnt. unfold ntheta in Hnt.
  unfold init_modes.
  eapply wp_zerosv; [lia|]. intros xm0 Hxm0.
  eapply wp_zerosv; [lia|]. intros xn0 Hxn0.
  eapply wp_isub; [unfold INT_MIN, INT_MAX in *; lia|].
  set (idx m := if m =? 0 then 0 else nboz i + 1 + (m - 1) * (2 * nboz i + 1)).
  eapply wp_sub with (R := fun r : narr * narr * Z =>
    vec_is (fst (fst r)) (mnboz i) (xm_b i) /\ vec_is (snd (fst r)) (mnboz i) (xn_b i)).
  2:{ intros ((xm, xn), j) (H1 & H2). cbn. auto. }
  replace (mboz i - 1 + 1) with (mboz i) by lia.
  eapply wp_mono; [|eapply wp_for_pure with (Inv := fun m r =>
    snd r = idx m /\
    vec_is (fst (fst r)) (mnboz i) (fun k => if k <? idx m then xm_b i k else 0) /\
    vec_is (snd (fst r)) (mnboz i) (fun k => if k <? idx m then xn_b i k else 0))].
  - cbn. intros ((xm, xn), j) o' ev (-> & -> & E & H1 & H2). cbn in *.
    assert (Ei : idx (mboz i) = mnboz i) by (unfold idx; zb; lia).
    splits; auto; (eapply vec_ext; [|eassumption]); intros k Hk; rewrite Ei; zb; auto.
  - lia.
  - cbn. splits; [unfold idx; zb; reflexivity| |];
      (eapply vec_ext; [|eassumption]); intros k Hk; unfold idx; zb; auto.
  - intros m ((xm, xn), j) Hmm (E & H1 & H2). cbn [fst snd] in *. subst j.
    set (nmin := if m =? 0 then 0 else - nboz i).
    assert (Hnmin : nmin <= nboz i + 1) by (unfold nmin; zb; lia).
    assert (Hidx : forall n, nmin <= n <= nboz i -> 0 <= idx m + (n - nmin) < mnboz i).
    { intros n Hn'. unfold idx, nmin in *. rewrite Halt. zb; nia. }
    eapply wp_mono; [|eapply wp_for_pure with (Inv := fun n r =>
      snd r = idx m + (n - nmin) /\
      vec_is (fst (fst r)) (mnboz i) (fun k => if k <? idx m + (n - nmin) then xm_b i k else 0) /\
      vec_is (snd (fst r)) (mnboz i) (fun k => if k <? idx m + (n - nmin) then xn_b i k else 0))].
    + cbn. intros ((xm', xn'), j) o' ev (-> & -> & E & H1' & H2'). cbn in *.
      assert (Ei : idx m + (nboz i + 1 - nmin) = idx (m + 1)).
      { unfold idx, nmin. destruct (Z.eqb_spec m 0); [subst m; cbn; zb; lia|zb; lia]. }
      rewrite Ei in *. splits; auto.
    + exact Hnmin.
    + cbn. rewrite Z.sub_diag, Z.add_0_r. auto.
    + intros n ((xm', xn'), j) Hn' (E & H1' & H2'). cbn [fst snd] in *. subst j.
      pose proof (Hidx n ltac:(lia)) as Hj.
      assert (Hmode : mode_m i (idx m + (n - nmin)) = m /\ mode_n i (idx m + (n - nmin)) = n).
      { unfold idx, nmin in *. destruct (Z.eqb_spec m 0).
        - subst m. rewrite Z.sub_0_r, Z.add_0_l. apply mode_at0. lia.
        - replace (n - - nboz i) with (n + nboz i) by lia. apply mode_at; lia. }
      destruct Hmode as (Em & En).
      eapply wp_vset; [exact H1'|exact Hj|]. intros xm'' H1''.
      eapply wp_imul. { apply (nbnf_le i Hok). unfold nmin in *. revert Hn'. zb; lia. }
      eapply wp_vset; [exact H2'|exact Hj|]. intros xn'' H2''.
      eapply wp_iadd. { unfold INT_MIN, INT_MAX in *. lia. }
      cbn [wp fst snd]. splits; auto; try lia.
      * eapply vec_ext; [|exact H1'']. intros k Hk. cbv beta.
        destruct (Z.eqb_spec k (idx m + (n - nmin))).
        -- subst k. zb. unfold xm_b. auto.
        -- zb; auto.
      * eapply vec_ext; [|exact H2'']. intros k Hk. cbv beta.
        destruct (Z.eqb_spec k (idx m + (n - nmin))).
        -- subst k. zb. unfold xn_b. now rewrite En.
        -- zb; auto.
Qed.

Lemma init_grid_spec P (o : obj) dt dz :
  wp P (init_grid S (nu3 i) (nzeta i) dt dz) o (fun r o' ev => ev = [] /\ o' = o /\
    vec_is (fst r) (npts i) (fun j => fofZ S (j / nzeta i) * dt)%sc /\
    vec_is (snd r) (npts i) (fun j => fofZ S (j mod nzeta i) * dz)%sc).
Proof.
  pose proof (nu3_bounds i Hok) as H3. pose proof (nzeta_pos i Hok) as Hz.
  pose proof (npts_int i Hok) as Hi. pose proof (npts_bounds i Hok) as Hb.
  assert (Enp : npts i = nu3 i * nzeta i) by reflexivity.
  unfold init_grid.
  eapply wp_imul; [rewrite <- Enp; unfold INT_MIN, INT_MAX in *; lia|].
  rewrite <- Enp.
  eapply wp_zerosv; [lia|]. intros t0 Ht0.
  eapply wp_zerosv; [lia|]. intros z0 Hz0.
  set (gt := fun j => (fofZ S (j / nzeta i) * dt)%sc).
  set (gz := fun j => (fofZ S (j mod nzeta i) * dz)%sc).
  eapply wp_sub with (R := fun r : arr S * arr S * Z =>
    vec_is (fst (fst r)) (npts i) gt /\ vec_is (snd (fst r)) (npts i) gz).
  2:{ intros ((a, b), j) (H1 & H2). cbn. auto. }
  eapply wp_mono; [|eapply wp_for_pure with (Inv := fun jt r =>
    snd r = jt * nzeta i /\
    vec_is (fst (fst r)) (npts i) (fun k => if k <? jt * nzeta i then gt k else f0 S) /\
    vec_is (snd (fst r)) (npts i) (fun k => if k <? jt * nzeta i then gz k else f0 S))].
  - cbn. intros ((a, b), j) o' ev (-> & -> & E & H1 & H2). cbn in *.
    splits; auto; (eapply vec_ext; [|eassumption]); intros k Hk; zb; auto.
  - lia.
  - cbn. splits; auto; (eapply vec_ext; [|eassumption]); intros k Hk; zb; auto.
  - intros jt ((a, b), j) Hjt (E & H1 & H2). cbn [fst snd] in *. subst j.
    eapply wp_mono; [|eapply wp_for_pure with (Inv := fun jz r =>
      snd r = jt * nzeta i + jz /\
      vec_is (fst (fst r)) (npts i) (fun k => if k <? jt * nzeta i + jz then gt k else f0 S) /\
      vec_is (snd (fst r)) (npts i) (fun k => if k <? jt * nzeta i + jz then gz k else f0 S))].
    + cbn. intros ((a', b'), j) o' ev (-> & -> & E & H1' & H2'). cbn in *.
      replace ((jt + 1) * nzeta i) with (jt * nzeta i + nzeta i) by lia. splits; auto.
    + lia.
    + cbn. rewrite Z.add_0_r. auto.
    + intros jz ((a', b'), j) Hjz (E & H1' & H2'). cbn [fst snd] in *. subst j.
      assert (Hj : 0 <= jt * nzeta i + jz < npts i) by (rewrite Enp; nia).
      assert (E1 : (jt * nzeta i + jz) / nzeta i = jt).
      { rewrite Z.add_comm, Z.div_add by lia. rewrite Z.div_small by lia. lia. }
      assert (E2 : (jt * nzeta i + jz) mod nzeta i = jz).
      { rewrite Z.add_comm, Z.mod_add by lia. apply Z.mod_small. lia. }
      eapply wp_vset; [exact H1'|exact Hj|]. intros a'' H1''.
      eapply wp_vset; [exact H2'|exact Hj|]. intros b'' H2''.
      eapply wp_iadd. { unfold INT_MIN, INT_MAX in *. lia. }
      cbn [wp fst snd]. splits; auto; try lia.
      * eapply vec_ext; [|exact H1'']. intros k Hk. cbv beta.
        destruct (Z.eqb_spec k (jt * nzeta i + jz)).
        -- subst k. zb. unfold gt. now rewrite E1.
        -- zb; auto.
      * eapply vec_ext; [|exact H2'']. intros k Hk. cbv beta.
        destruct (Z.eqb_spec k (jt * nzeta i + jz)).
        -- subst k. zb. unfold gz. now rewrite E2.
        -- zb; auto.
Qed.

Definition init_events : list (event S) :=
  if 0 <? verb i
  then [mkEv "Initializing with mboz, nboz, ntheta, nzeta" [mboz i; nboz i; ntheta i; nzeta i] []]
  else [].

Lemma sb_loop P (o : obj) a :
  (forall k j, fpR P A_s_in k /\ fpR P j k) ->
  repr o i -> arows a = nsurf i -> acols a = 1 -> Z.of_nat (List.length (adata a)) = nsurf i ->
  wp P (for_ 0 (nsurf i) a (fun j s_b =>
           bind (getn N_compute_surfs j) (fun js =>
           bind (getv A_s_in js) (fun x => vset s_b j x)))) o
    (fun a' o' ev => ev = [] /\ o' = o /\ vec_is a' (nsurf i) (fun k => sin_ i (surf i k))).
Proof.
  intros HP R H1 H2 H3.
  eapply wp_mono; [|eapply wp_for_pure with (Inv := fun j a' =>
    arows a' = nsurf i /\ acols a' = 1 /\ Z.of_nat (List.length (adata a')) = nsurf i /\
    forall k, 0 <= k < j -> znth (adata a') k = Some (Some (sin_ i (surf i k))))].
  - cbn. intros a' o' ev (-> & -> & E). split; [|split]; auto.
  - pose proof (ok_nsurf _ _ Hok). lia.
  - splits; auto. intros; lia.
  - intros j a' Hj (E1 & E2 & E3 & E4).
    eapply wp_getn; [exact (r_surf _ _ _ R)|lia|].
    eapply wp_getv; [exact (r_sin _ _ _ R)|apply (ok_surf _ _ Hok); lia|apply (HP _ A_s_in)|].
    unfold vset. destruct (proj2 (znth_Some (adata a') j)) as (c & Ec); [lia|]. rewrite Ec.
    cbn [wp]. splits; auto.
    + cbn. now rewrite zset_length.
    + intros k Hk. cbn [aput adata]. destruct (Z.eq_dec k j) as [->|].
      * apply znth_zset_same. lia.
      * rewrite znth_zset_other by lia. apply E4. lia.
Qed.

Theorem init_spec (o : obj) :
  repr o i -> wf_obj o ->
  wp fp_any (init S) o (fun _ o' ev =>
    run_frame (asym i) o o' /\ grid_ok o' i /\ zero_out o' i /\ ev = init_events).
Proof.
  intros R W.
  pose proof (ok_mboz _ _ Hok) as Hm. pose proof (ok_nboz _ _ Hok) as Hn.
  pose proof (ntheta_le i Hok) as B1. pose proof (nzeta_le i Hok) as B2.
  pose proof (nboz_le i Hok) as B3. pose proof (npts_int i Hok) as B4.
  pose proof (npts_bounds i Hok) as B5. pose proof (mnboz_pos i Hok) as B6.
  pose proof (mnboz_le i Hok) as B7. pose proof (ok_grid _ _ Hok) as B8.
  pose proof (nu3_bounds i Hok) as B9. pose proof (nu2_eq i) as B10.
  pose proof (ntheta_half i) as B11. pose proof (ntheta_quot i Hok) as B12.
  pose proof (ok_gridz _ _ Hok) as B13. pose proof (ok_nfp _ _ Hok) as B14.
  pose proof (nzeta_pos i Hok) as B15.
  pose proof (ok_mpol _ _ Hok) as C1. pose proof (ok_ntor _ _ Hok) as C2.
  pose proof (ok_mpolq _ _ Hok) as C3. pose proof (ok_ntorq _ _ Hok) as C4.
  pose proof (ok_nsurf _ _ Hok) as C5. pose proof (ok_nsin _ _ Hok) as C6.
  assert (Imin : INT_MIN = -2147483648) by reflexivity.
  assert (Imax : INT_MAX = 2147483647) by reflexivity.
  unfold init.
  eapply wp_geti; [apply R|]. eapply wp_geti; [apply R|].
  eapply wp_imul; [unfold ntheta in *; lia|].
  eapply wp_iadd; [unfold ntheta in *; lia|].
  eapply wp_imul; [unfold ntheta in *; lia|].
  change (2 * (2 * mboz i + 1)) with (ntheta i).
  eapply wp_seti; [exact I|].
  eapply wp_imul; [lia|].
  eapply wp_iadd; [lia|].
  eapply wp_imul; [lia|]. cbv zeta.
  change (if nboz i =? 0 then 1 else 2 * (2 * nboz i + 1)) with (nzeta i).
  eapply wp_seti; [exact I|].
  eapply wp_idiv; [lia|rewrite B12, B11; unfold ntheta in *; lia|]. rewrite B12.
  eapply wp_iadd; [rewrite B11; unfold ntheta in *; lia|].
  change (ntheta i / 2 + 1) with (nu2 i).
  eapply wp_seti; [exact I|].
  eapply wp_imul; [lia|]. eapply wp_iadd; [lia|].
  eapply wp_isub; [unfold ntheta in *; lia|].
  assert (Hmn : mnboz i = (2 * nboz i + 1) * (mboz i - 1) + nboz i + 1) by reflexivity.
  assert (0 <= (2 * nboz i + 1) * (mboz i - 1)) by nia.
  eapply wp_imul; [lia|]. eapply wp_iadd; [lia|]. eapply wp_iadd; [lia|].
  rewrite <- Hmn.
  eapply wp_seti; [exact I|].
  eapply wp_geti; [cbn; apply R|].
  apply wp_if_out.
  eapply wp_geti; [cbn; apply R|].
  eapply wp_sub; [apply init_modes_spec|]. intros (xmb, xnb) (Hxm & Hxn). cbn [fst snd] in *.
  eapply wp_setn; [exact I|]. eapply wp_setn; [exact I|].
  eapply wp_getb; [cbn; apply R|]. cbv zeta.
  change (if asym i then ntheta i else nu2 i) with (nu3 i).
  eapply wp_seti; [exact I|].
  eapply wp_imul; [unfold npts in *; lia|].
  change (nu3 i * nzeta i) with (npts i).
  eapply wp_seti; [exact I|].
  eapply wp_sub with (R := fun x => x = dtheta i).
  { unfold dtheta. destruct (asym i) eqn:Ea.
    - cbn. auto.
    - eapply wp_isub; [lia|]. eapply wp_imul; [|cbn; auto].
      unfold nu3. rewrite Ea. unfold ntheta in *. lia. }
  intros x ->.
  eapply wp_setf; [exact I|].
  eapply wp_imul; [split; [nia|lia]|].
  change (ftwopi S / fofZ S (nfp i * nzeta i))%sc with (dzeta i).
  eapply wp_setf; [exact I|].
  eapply wp_sub; [apply init_grid_spec|]. intros (tg, zg) (Htg & Hzg). cbn [fst snd] in *.
  change (vec_is tg (npts i) (thg i)) in Htg. change (vec_is zg (npts i) (zeg i)) in Hzg.
  eapply wp_setarr; [exact I|]. eapply wp_setarr; [exact I|].
  eapply wp_geti; [cbn; apply R|]. eapply wp_geti; [cbn; apply R|].
  eapply wp_geti; [cbn; apply R|]. eapply wp_geti; [cbn; apply R|].
  eapply wp_zerosm; [lia|lia|]. intros c1 Hc1.
  eapply wp_zerosm; [lia|lia|]. intros s1 Hs1.
  eapply wp_iadd; [lia|].
  eapply wp_zerosm; [lia|lia|]. intros c2 Hc2.
  eapply wp_zerosm; [lia|lia|]. intros s2 Hs2.
  eapply wp_iadd; [lia|].
  eapply wp_zerosm; [lia|lia|]. intros c3 Hc3.
  eapply wp_zerosm; [lia|lia|]. intros s3 Hs3.
  eapply wp_iadd; [lia|].
  eapply wp_zerosm; [lia|lia|]. intros c4 Hc4.
  eapply wp_zerosm; [lia|lia|]. intros s4 Hs4.
  eapply wp_isub; [lia|].
  eapply wp_sub.
  { eapply init_trig_spec with (R := npts i) (Cm := mpol i) (Cn := ntor i + 1);
      [| | |exact Htg|exact Hzg|exact Hc1|exact Hs1|exact Hc2|exact Hs2]; auto; lia. }
  intros t1 [T1 T2 T3 T4].
  eapply wp_setarr; [exact I|]. eapply wp_setarr; [exact I|].
  eapply wp_setarr; [exact I|]. eapply wp_setarr; [exact I|].
  eapply wp_sub.
  { eapply init_trig_spec with (R := npts i) (Cm := mpolq i + 1) (Cn := ntorq i + 1);
      [| | |exact Htg|exact Hzg|exact Hc3|exact Hs3|exact Hc4|exact Hs4]; auto; lia. }
  intros t2 [U1 U2 U3 U4].
  eapply wp_setarr; [exact I|]. eapply wp_setarr; [exact I|].
  eapply wp_setarr; [exact I|]. eapply wp_setarr; [exact I|].
  eapply wp_sizen; [cbn; apply R|].
  eapply wp_seti; [exact I|].
  eapply wp_getarr; [exact I|].
  eapply wp_resize; [cbn; apply W|lia|lia|]. intros sb0 E1 E2 E3. rewrite Z.mul_1_r in E3.
  eapply wp_sub.
  { apply sb_loop; auto; [intros; cbn; auto|].
    match goal with |- repr ?o' _ => apply (run_frame_repr (asym i) o o'); [|exact R] end.
    constructor; intros f; destruct f; intros; cbn in *; try discriminate; reflexivity. }
  intros sb Hsb.
  eapply wp_setarr; [exact I|].
  eapply wp_geti; [cbn; apply R|].
  eapply wp_zerosv; [lia|]. intros z Hz.
  eapply wp_setarr; [exact I|]. eapply wp_setarr; [exact I|].
  eapply wp_zerosv; [lia|]. intros zi Hzi.
  eapply wp_sub with (R := fun r : arr S * arr S =>
    vec_is (fst r) (nsin i) (fun j => bsubumnc i 0 j) /\ vec_is (snd r) (nsin i) (fun j => bsubvmnc i 0 j)).
  { eapply wp_mono; [|eapply wp_for_pure with (Inv := fun j r =>
      vec_is (fst r) (nsin i) (fun k => if k <? j then bsubumnc i 0 k else f0 S) /\
      vec_is (snd r) (nsin i) (fun k => if k <? j then bsubvmnc i 0 k else f0 S))].
    - cbn. intros r o' ev (-> & -> & A1 & A2). splits; auto.
      + eapply vec_ext; [|exact A1]. intros; zb; auto.
      + eapply vec_ext; [|exact A2]. intros; zb; auto.
    - lia.
    - split; (eapply vec_ext; [|exact Hzi]); intros; zb; auto.
    - intros j (ia, ga) Hj (A1 & A2). cbn [fst snd] in *. pose proof (ok_mnmaxq _ _ Hok).
      eapply wp_getm; [cbn; apply (r_bsubumnc _ _ _ R)|lia|lia|exact I|].
      eapply wp_vset; [exact A1|lia|]. intros ia' A1'.
      eapply wp_getm; [cbn; apply (r_bsubvmnc _ _ _ R)|lia|lia|exact I|].
      eapply wp_vset; [exact A2|lia|]. intros ga' A2'.
      cbn [wp fst snd]. splits; auto.
      + eapply vec_ext; [|exact A1']. intros k Hk. destruct (Z.eq_dec k j) as [->|]; zb; auto.
      + eapply vec_ext; [|exact A2']. intros k Hk. destruct (Z.eq_dec k j) as [->|]; zb; auto. }
  intros (ia, ga) (Hia & Hga). cbn [fst snd] in *.
  eapply wp_setarr; [exact I|]. eapply wp_setarr; [exact I|].
  eapply wp_zerosm; [lia|lia|]. intros zo Hzo.
  do 5 (eapply wp_setarr; [exact I|]).
  destruct (asym i) eqn:Ea.
  - do 4 (eapply wp_setarr; [exact I|]).
    cbn [setarr wp]. split; [exact I|].
    split; [|split; [|split]].
    + constructor; intros f; destruct f; intros; cbn in *; try discriminate; reflexivity.
    + constructor; cbn; auto; (eapply mat_ext; [|eassumption]); intros j0 m0 ? ?; try destruct (Z.eq_dec m0 0) as [->|]; zb; reflexivity.
    + constructor; cbn; auto. rewrite Ea. intros f Hf. cbn in Hf.
      repeat (destruct Hf as [<-|Hf]; [exact Hzo|]). contradiction.
    + rewrite app_nil_r. reflexivity.
  - cbn [setarr wp].
    split; [|split; [|split]].
    + constructor; intros f; destruct f; intros; cbn in *; try discriminate; reflexivity.
    + constructor; cbn; auto; (eapply mat_ext; [|eassumption]); intros j0 m0 ? ?; try destruct (Z.eq_dec m0 0) as [->|]; zb; reflexivity.
    + constructor; cbn; auto. rewrite Ea. intros f Hf. cbn in Hf.
      repeat (destruct Hf as [<-|Hf]; [exact Hzo|]). contradiction.
    + rewrite app_nil_r. reflexivity.
Qed.

End WithInput.
End InitProof.

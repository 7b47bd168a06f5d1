(** Properties C11 - C19, C22 - C25: run() in real arithmetic.  pi is exact, sin and cos are
    the mathematical functions, x / 0 has no meaning: where G + iota I or |B| is 0 the theorems
    C12, C15, C25 say nothing about the program (both sides are Coq's x / 0). *)
From Coq Require Import ZArith List String Bool Lia Reals Permutation.
From Verif Require Import Scalar Prog Model Wp Func InitProof SurfProof RunProof FuncExt Spec RunThms
  RSum RSpec RPoint RQuad RThms RThms2 RThms3 RExamples.
Import ListNotations.
Local Open Scope Z_scope.
Local Open Scope R_scope.

(** ** C11 *)
Theorem C11_tables_exact : forall (o : obj RS) i,
  valid o i ->
  exists o' ev, run_ok o o' ev /\
  let n := ((if asym i then nt i else nt i / 2 + 1) * nz i)%Z in
  asize (oA o' A_theta_grid) = n /\ asize (oA o' A_zeta_grid) = n /\
  forall j, (0 <= j < n)%Z ->
    let t := gth i (j / nz i)%Z in let z := gze i (j mod nz i)%Z in
    elem o' A_theta_grid j = Some (Some t) /\ elem o' A_zeta_grid j = Some (Some z) /\
    (forall m, (0 <= m < mpol i)%Z ->
       elem2 o' A_cosm j m = Some (Some (cos (IZR m * t))) /\ elem2 o' A_sinm j m = Some (Some (sin (IZR m * t)))) /\
    (forall m, (0 <= m <= mpolq i)%Z ->
       elem2 o' A_cosm_nyq j m = Some (Some (cos (IZR m * t))) /\ elem2 o' A_sinm_nyq j m = Some (Some (sin (IZR m * t)))) /\
    (forall m, (0 <= m <= ntor i)%Z ->
       elem2 o' A_cosn j m = Some (Some (cos (IZR m * IZR (nfp i) * z))) /\
       elem2 o' A_sinn j m = Some (Some (sin (IZR m * IZR (nfp i) * z)))) /\
    (forall m, (0 <= m <= ntorq i)%Z ->
       elem2 o' A_cosn_nyq j m = Some (Some (cos (IZR m * IZR (nfp i) * z))) /\
       elem2 o' A_sinn_nyq j m = Some (Some (sin (IZR m * IZR (nfp i) * z)))).
Proof. exact tables_exact. Qed.
Theorem C11_init_trig_exact : forall (o : obj RS) R Cm Cn N mmax nmax nf t vth vze th ze gcm gsm gcn gsn,
  (0 <= N <= R)%Z -> (1 <= mmax < Cm)%Z -> (0 <= nmax < Cn)%Z ->
  vec_is vth N th -> vec_is vze N ze ->
  mat_is (tcosm RS t) R Cm gcm -> mat_is (tsinm RS t) R Cm gsm ->
  mat_is (tcosn RS t) R Cn gcn -> mat_is (tsinn RS t) R Cn gsn ->
  (forall j, gsm j 0%Z = 0) -> (forall j, gsn j 0%Z = 0) ->
  exists t', run (init_trig RS vth vze t mmax nmax nf) o = ROk t' o [] /\
  forall j, (0 <= j < N)%Z ->
    (forall m, (0 <= m <= mmax)%Z ->
       znth (adata (tcosm RS t')) (j + m * R) = Some (Some (cos (IZR m * th j))) /\
       znth (adata (tsinm RS t')) (j + m * R) = Some (Some (sin (IZR m * th j)))) /\
    (forall n, (0 <= n <= nmax)%Z ->
       znth (adata (tcosn RS t')) (j + n * R) = Some (Some (cos (IZR n * (IZR nf * ze j)))) /\
       znth (adata (tsinn RS t')) (j + n * R) = Some (Some (sin (IZR n * (IZR nf * ze j))))).
Proof. exact init_trig_exact. Qed.
Example C11_case : valid (obj_of (ex_inp RS true)) (ex_inp RS true) /\ nfp_divides (ex_inp RS true).
Proof. exact (conj (ex_valid RS true) (ex_div true)). Qed.

(** ** C12, C14 *)
Theorem C12_C14_angles_and_jacobian : forall (o : obj RS) i,
  valid o i -> nfp_divides i ->
  exists o1 e1, run (run_head RS) o = ROk tt o1 e1 /\
  forall b js n, elemN o N_compute_surfs b = Some (Some js) -> oI o1 I_n_theta_zeta = Some n ->
  exists rz w h o2 I G, run (surface_angles RS (asym i) js b n) o1 = ROk (rz, w, h) o2 [] /\
    elem o2 A_Boozer_I b = Some (Some I) /\ elem o2 A_Boozer_G b = Some (Some G) /\
    forall j t z, elem o1 A_theta_grid j = Some (Some t) -> elem o1 A_zeta_grid j = Some (Some z) ->
      znth (adata (vlam RS rz)) j = Some (Some (mL i js t z)) /\
      znth (adata (hnu RS h)) j = Some (Some ((mW i js t z - I * mL i js t z) / (G + iota i js * I))) /\
      znth (adata (hth RS h)) j = Some (Some (t + mL i js t z + iota i js * mNu i js I G t z)) /\
      znth (adata (hze RS h)) j = Some (Some (z + mNu i js I G t z)) /\
      forall J, is_jacobian i js I G J -> znth (adata (hjac RS h)) j = Some (Some (J t z)).
Proof. exact boozer_angles. Qed.
Example C12_case : valid (obj_of (ex_inp RS true)) (ex_inp RS true) /\ nfp_divides (ex_inp RS true).
Proof. exact (conj (ex_valid RS true) (ex_div true)). Qed.

(** ** C13 *)
Theorem C13_really_boozer : forall (o : obj RS) i,
  valid o i -> nfp_divides i -> at_most_one_00 i ->
  exists o1 e1 o' ev, run (run_head RS) o = ROk tt o1 e1 /\ run_ok o o' ev /\
  forall b js n, elemN o N_compute_surfs b = Some (Some js) -> oI o1 I_n_theta_zeta = Some n ->
  exists rz w h o2 I G, run (surface_angles RS (asym i) js b n) o1 = ROk (rz, w, h) o2 [] /\
    elem o' A_Boozer_I b = Some (Some I) /\ elem o' A_Boozer_G b = Some (Some G) /\
    (forall j t z, elem o1 A_theta_grid j = Some (Some t) -> elem o1 A_zeta_grid j = Some (Some z) ->
      znth (adata (hth RS h)) j = Some (Some (mTh i js I G t z)) /\
      znth (adata (hze RS h)) j = Some (Some (mZe i js I G t z))) /\
    (no_radial_current i js -> G + iota i js * I <> 0 ->
     forall t z, exists tt tz zt zz,
      derivable_pt_lim (fun x => mTh i js I G x z) t tt /\ derivable_pt_lim (fun x => mTh i js I G t x) z tz /\
      derivable_pt_lim (fun x => mZe i js I G x z) t zt /\ derivable_pt_lim (fun x => mZe i js I G t x) z zz /\
      mBt i js t z = I * tt + G * zt /\ mBz i js t z = I * tz + G * zz).
Proof. exact really_boozer. Qed.
Example C13_case : valid (obj_of ex_phys) ex_phys /\ at_most_one_00 ex_phys /\ nfp_divides ex_phys /\
  forall b, (0 <= b < nsurf ex_phys)%Z -> no_radial_current ex_phys (surf ex_phys b) /\
    bG ex_phys (surf ex_phys b) + iota ex_phys (surf ex_phys b) * bI ex_phys (surf ex_phys b) <> 0.
Proof. exact ex_phys_ok. Qed.

(** ** C15 *)
Theorem C15_quadrature : forall (o : obj RS) i,
  valid o i -> nfp_divides i ->
  exists o' ev, run_ok o o' ev /\
  forall b js I G k m n J, elemN o N_compute_surfs b = Some (Some js) ->
    elem o' A_Boozer_I b = Some (Some I) -> elem o' A_Boozer_G b = Some (Some G) ->
    elemN o' N_xm_b k = Some (Some m) -> elemN o' N_xn_b k = Some (Some n) ->
    is_jacobian i js I G J ->
    let q Q trig := Some (Some (quad i js I G J Q trig m n)) in
    elem2 o' A_bmnc_b k b = q (mB i js) cos /\
    elem2 o' A_rmnc_b k b = q (mR i js) cos /\
    elem2 o' A_zmns_b k b = q (mZ i js) sin /\
    elem2 o' A_numns_b k b = q (mNu i js I G) sin /\
    elem2 o' A_gmnc_b k b = q (mSqrtg i js I G) cos /\
    (asym i = true ->
      elem2 o' A_bmns_b k b = q (mB i js) sin /\
      elem2 o' A_rmns_b k b = q (mR i js) sin /\
      elem2 o' A_zmnc_b k b = q (mZ i js) cos /\
      elem2 o' A_numnc_b k b = q (mNu i js I G) cos /\
      elem2 o' A_gmns_b k b = q (mSqrtg i js I G) sin).
Proof. exact coefficients. Qed.
Example C15_case : valid (obj_of (ex_inp RS true)) (ex_inp RS true) /\ nfp_divides (ex_inp RS true).
Proof. exact (conj (ex_valid RS true) (ex_div true)). Qed.

(** ** C16 *)
Theorem C16_identity : forall (o : obj RS) i,
  valid o i -> nfp_divides i ->
  no_alias i (mnmax i) (xm i) (xn i) -> no_alias i (mnmaxq i) (xmq i) (xnq i) ->
  exists o' ev, run_ok o o' ev /\
  forall b js I G k m n, elemN o N_compute_surfs b = Some (Some js) ->
    elem o' A_Boozer_I b = Some (Some I) -> elem o' A_Boozer_G b = Some (Some G) ->
    G + iota i js * I <> 0 -> in_boozer i js ->
    elemN o' N_xm_b k = Some (Some m) -> elemN o' N_xn_b k = Some (Some n) ->
    let geo_c x := Some (Some (amp_c (mnmax i) (xm i) (xn i) (fun k => x i k js) m n)) in
    let geo_s x := Some (Some (amp_s (mnmax i) (xm i) (xn i) (fun k => x i k js) m n)) in
    elem2 o' A_rmnc_b k b = geo_c (@rmnc RS) /\
    elem2 o' A_zmns_b k b = geo_s (@zmns RS) /\
    elem2 o' A_bmnc_b k b = Some (Some (amp_c (mnmaxq i) (xmq i) (xnq i) (fun k => bmnc i k js) m n)) /\
    elem2 o' A_numns_b k b = Some (Some 0) /\
    (asym i = true ->
      elem2 o' A_rmns_b k b = geo_s (@rmns RS) /\
      elem2 o' A_zmnc_b k b = geo_c (@zmnc RS) /\
      elem2 o' A_bmns_b k b = Some (Some (amp_s (mnmaxq i) (xmq i) (xnq i) (fun k => bmns i k js) m n)) /\
      elem2 o' A_numnc_b k b = Some (Some 0)).
Proof. exact identity_transform. Qed.
Theorem C16_identity_modes : forall (o : obj RS) i,
  valid o i -> nfp_divides i ->
  no_alias i (mnmax i) (xm i) (xn i) -> no_alias i (mnmaxq i) (xmq i) (xnq i) ->
  canonical (mnmax i) (xm i) (xn i) -> canonical (mnmaxq i) (xmq i) (xnq i) ->
  exists o' ev, run_ok o o' ev /\
  forall b js I G k m n, elemN o N_compute_surfs b = Some (Some js) ->
    elem o' A_Boozer_I b = Some (Some I) -> elem o' A_Boozer_G b = Some (Some G) ->
    G + iota i js * I <> 0 -> in_boozer i js ->
    elemN o' N_xm_b k = Some (Some m) -> elemN o' N_xn_b k = Some (Some n) ->
    (** a mode that is in the input *)
    (forall l, (0 <= l < mnmax i)%Z -> xm i l = m -> xn i l = n ->
       elem2 o' A_rmnc_b k b = Some (Some (rmnc i l js)) /\
       ((m <> 0 \/ n <> 0)%Z -> elem2 o' A_zmns_b k b = Some (Some (zmns i l js))) /\
       (asym i = true -> elem2 o' A_zmnc_b k b = Some (Some (zmnc i l js)) /\
         ((m <> 0 \/ n <> 0)%Z -> elem2 o' A_rmns_b k b = Some (Some (rmns i l js))))) /\
    (forall l, (0 <= l < mnmaxq i)%Z -> xmq i l = m -> xnq i l = n ->
       elem2 o' A_bmnc_b k b = Some (Some (bmnc i l js)) /\
       (asym i = true -> (m <> 0 \/ n <> 0)%Z -> elem2 o' A_bmns_b k b = Some (Some (bmns i l js)))) /\
    (** a mode that is not *)
    ((forall l, (0 <= l < mnmax i)%Z -> ~ (xm i l = m /\ xn i l = n)) ->
       elem2 o' A_rmnc_b k b = Some (Some 0) /\ elem2 o' A_zmns_b k b = Some (Some 0) /\
       (asym i = true -> elem2 o' A_zmnc_b k b = Some (Some 0) /\ elem2 o' A_rmns_b k b = Some (Some 0))) /\
    ((forall l, (0 <= l < mnmaxq i)%Z -> ~ (xmq i l = m /\ xnq i l = n)) ->
       elem2 o' A_bmnc_b k b = Some (Some 0) /\ (asym i = true -> elem2 o' A_bmns_b k b = Some (Some 0))) /\
    (** sine of nothing, and nu *)
    (m = 0%Z -> n = 0%Z -> elem2 o' A_zmns_b k b = Some (Some 0) /\
       (asym i = true -> elem2 o' A_rmns_b k b = Some (Some 0) /\ elem2 o' A_bmns_b k b = Some (Some 0))) /\
    elem2 o' A_numns_b k b = Some (Some 0) /\ (asym i = true -> elem2 o' A_numnc_b k b = Some (Some 0)).
Proof. exact identity_modes. Qed.
Example C16_case : forall asy, valid (obj_of (ex_id asy)) (ex_id asy) /\ nfp_divides (ex_id asy) /\
  no_alias (ex_id asy) 2 (xm (ex_id asy)) (xn (ex_id asy)) /\ no_alias (ex_id asy) 3 (xmq (ex_id asy)) (xnq (ex_id asy)) /\
  canonical 2 (xm (ex_id asy)) (xn (ex_id asy)) /\ canonical 3 (xmq (ex_id asy)) (xnq (ex_id asy)) /\
  forall js, in_boozer (ex_id asy) js /\ bG (ex_id asy) js = 7 /\ bI (ex_id asy) js = 2.
Proof. exact ex_id_ok. Qed.

(** ** C17 *)
Theorem C17_sym_asym : forall (o o' : obj RS) i,
  valid o i -> nfp_divides i -> asym i = false ->
  valid o' (as_asym i) ->
  exists r e r' e', run_ok o r e /\ run_ok o' r' e' /\
  forall b k, (0 <= b < nsurf i)%Z -> (0 <= k < mnboz i)%Z ->
    (forall f, In f sym_outs -> elem2 r' f k b = elem2 r f k b /\ elem2 r f k b <> None) /\
    (forall f, In f asym_outs -> elem2 r' f k b = Some (Some 0)).
Proof. exact sym_asym_agree. Qed.
Example C17_case : valid (obj_of (ex_inp RS false)) (ex_inp RS false) /\ nfp_divides (ex_inp RS false) /\
  valid (obj_of (as_asym (ex_inp RS false))) (as_asym (ex_inp RS false)).
Proof. exact (conj (ex_valid RS false) (conj (ex_div false) ex_asym_ok)). Qed.

(** ** C18 *)
Theorem C18_field_scaling : forall (o o' : obj RS) i c,
  valid o i -> nfp_divides i -> c <> 0 -> valid o' (scale_field c i) ->
  exists r e r' e', run_ok o r e /\ run_ok o' r' e' /\
  forall b, (0 <= b < nsurf i)%Z -> exists I G,
    elem r A_Boozer_I b = Some (Some I) /\ elem r' A_Boozer_I b = Some (Some (c * I)) /\
    elem r A_Boozer_G b = Some (Some G) /\ elem r' A_Boozer_G b = Some (Some (c * G)) /\
    (G + iota i (surf i b) * I <> 0 -> forall k, (0 <= k < mnboz i)%Z ->
      (forall f, In f [A_rmnc_b; A_zmns_b; A_numns_b] \/ (asym i = true /\ In f [A_rmns_b; A_zmnc_b; A_numnc_b]) ->
         elem2 r' f k b = elem2 r f k b /\ elem2 r f k b <> None) /\
      (forall f, f = A_bmnc_b \/ (asym i = true /\ f = A_bmns_b) ->
         exists x, elem2 r f k b = Some (Some x) /\ elem2 r' f k b = Some (Some (c * x))) /\
      ((forall t z, mB i (surf i b) t z <> 0) ->
       forall f, f = A_gmnc_b \/ (asym i = true /\ f = A_gmns_b) ->
         exists x, elem2 r f k b = Some (Some x) /\ elem2 r' f k b = Some (Some (x / c)))).
Proof. exact field_scaling. Qed.
Example C18_case : valid (obj_of ex_phys) ex_phys /\ nfp_divides ex_phys /\ valid (obj_of (scale_field 3 ex_phys)) (scale_field 3 ex_phys).
Proof. exact (conj (proj1 ex_phys_ok) (conj (proj1 (proj2 (proj2 ex_phys_ok))) (ex_scale_ok 3))). Qed.

(** ** C19 *)
Theorem C19_linear : forall i x1 x2 a b (o1 o2 o3 : obj RS),
  nfp_divides i -> valid o1 (with_rzb i x1) -> valid o2 (with_rzb i x2) -> valid o3 (with_rzb i (rzb_comb a b x1 x2)) ->
  exists r1 e1 r2 e2 r3 e3, run_ok o1 r1 e1 /\ run_ok o2 r2 e2 /\ run_ok o3 r3 e3 /\
  forall f k j, (0 <= k < mnboz i)%Z -> (0 <= j < nsurf i)%Z ->
    In f [A_rmnc_b; A_zmns_b; A_bmnc_b] \/ (asym i = true /\ In f [A_rmns_b; A_zmnc_b; A_bmns_b]) ->
    exists v1 v2, elem2 r1 f k j = Some (Some v1) /\ elem2 r2 f k j = Some (Some v2) /\
      elem2 r3 f k j = Some (Some (a * v1 + b * v2)).
Proof. exact linearity. Qed.
Example C19_case : nfp_divides (ex_inp RS true) /\
  valid (obj_of (with_rzb (ex_inp RS true) (ex_rzb 1))) (with_rzb (ex_inp RS true) (ex_rzb 1)) /\
  valid (obj_of (with_rzb (ex_inp RS true) (ex_rzb 4))) (with_rzb (ex_inp RS true) (ex_rzb 4)) /\
  valid (obj_of (with_rzb (ex_inp RS true) (rzb_comb 2 (-3) (ex_rzb 1) (ex_rzb 4)))) (with_rzb (ex_inp RS true) (rzb_comb 2 (-3) (ex_rzb 1) (ex_rzb 4))).
Proof. exact (conj (ex_div true) (conj (ex_rzb_ok _) (conj (ex_rzb_ok _) (ex_rzb_ok _)))). Qed.

(** ** C22 *)
Theorem C22_mode_order : forall (o o' : obj RS) i p q,
  valid o i -> nfp_divides i -> at_most_one_00 i ->
  perm_of (mnmax i) p -> perm_of (mnmaxq i) q -> q 0%Z = 0%Z -> valid o' (permute p q i) ->
  exists r e r' e', run_ok o r e /\ run_ok o' r' e' /\ same_outputs (asym i) r r'.
Proof. exact mode_order_irrelevant. Qed.
Example C22_case : valid (obj_of (ex_inp RS true)) (ex_inp RS true) /\ nfp_divides (ex_inp RS true) /\ at_most_one_00 (ex_inp RS true) /\
  (perm_of 2 ex_p /\ perm_of 3 ex_q /\ ex_q 0 = 0%Z /\ ex_p 0 <> 0%Z /\ ex_q 1 <> 1%Z) /\
  valid (obj_of (permute ex_p ex_q (ex_inp RS true))) (permute ex_p ex_q (ex_inp RS true)).
Proof. exact (conj (ex_valid RS true) (conj (ex_div true) (conj (ex_one00 true) (conj ex_perm ex_permute_ok)))). Qed.

(** ** C23: true if no appended Nyquist mode is (0,0) *)
Theorem C23_zero_modes_partial : forall (o o' : obj RS) i n nq,
  valid o i -> nfp_divides i -> (0 <= n <= mnmax i)%Z -> (1 <= nq <= mnmaxq i)%Z -> zero_from n nq i ->
  (forall k, (nq <= k < mnmaxq i)%Z -> xmq i k <> 0%Z \/ xnq i k <> 0%Z) ->
  valid o' (cut n nq i) ->
  exists r e r' e', run_ok o r e /\ run_ok o' r' e' /\ same_outputs (asym i) r r'.
Proof. exact zero_modes_irrelevant. Qed.
Example C23_case : (valid (obj_of (ex_pad 1)) (ex_pad 1) /\ nfp_divides (ex_pad 1) /\ zero_from 1 2 (ex_pad 1) /\
    valid (obj_of (cut 1 2 (ex_pad 1))) (cut 1 2 (ex_pad 1))) /\
  forall k, (2 <= k < mnmaxq (ex_pad 1))%Z -> xmq (ex_pad 1) k <> 0%Z \/ xnq (ex_pad 1) k <> 0%Z.
Proof. exact (conj (ex_pad_ok 1 ltac:(lia)) ex_pad_not00). Qed.
Theorem C23_zero_00_mode_refuted : exists (o o' : obj RS) i r e r' e',
  valid o i /\ nfp_divides i /\ zero_from 1 2 i /\ valid o' (cut 1 2 i) /\ run_ok o r e /\ run_ok o' r' e' /\
  elem r A_Boozer_I 0 = Some (Some 0) /\ elem r A_Boozer_G 0 = Some (Some 0) /\
  elem r' A_Boozer_I 0 = Some (Some 7) /\ elem r' A_Boozer_G 0 = Some (Some 8).
Proof. exact zero_00_mode. Qed.

(** ** C24 *)
Theorem C24_sample_points : forall (o : obj RS) i,
  valid o i ->
  exists o' ev nt nz l, run_ok o o' ev /\
    oI o' I_ntheta = Some nt /\ oI o' I_nzeta = Some nz /\ run (check_indices RS nt nz) o' = ROk l o' [] /\
    let zh := if Z.eqb nz 1 then 0 else PI / IZR (nfp i) in
    map (elem o' A_theta_grid) l = map (fun x => Some (Some x)) [0; PI; 0; PI] /\
    map (elem o' A_zeta_grid) l = map (fun x => Some (Some x)) [0; 0; zh; zh] /\
    (nz = 1%Z <-> nboz i = 0%Z).
Proof. exact check_points. Qed.
Example C24_case : valid (obj_of (ex_inp RS true)) (ex_inp RS true) /\ nfp_divides (ex_inp RS true).
Proof. exact (conj (ex_valid RS true) (ex_div true)). Qed.

(** ** C25 *)
Theorem C25_accuracy_report : forall (o : obj RS) i,
  valid o i -> nfp_divides i -> (0 < verb i)%Z ->
  exists o' ev, run_ok o o' ev /\
  exists line, filter is_acc ev = map line (zseq 0 (Z.to_nat (nsurf i))) /\
  forall b, (0 <= b < nsurf i)%Z ->
  exists js I G ms ns c s,
    elemN o N_compute_surfs b = Some (Some js) /\
    elem o' A_Boozer_I b = Some (Some I) /\ elem o' A_Boozer_G b = Some (Some G) /\
    (forall k, (0 <= k < mnboz i)%Z ->
       elemN o' N_xm_b k = Some (Some (ms k)) /\ elemN o' N_xn_b k = Some (Some (ns k)) /\
       elem2 o' A_bmnc_b k b = Some (Some (c k)) /\
       (asym i = true -> elem2 o' A_bmns_b k b = Some (Some (s k)))) /\
    let B p := mB i js (fst p) (snd p) in
    let rec p := series (mnboz i) ms ns c (onA (asym i) s) (mTh i js I G (fst p) (snd p)) (mZe i js I G (fst p) (snd p)) in
    line b = @mkEv RS "accuracy" [b; js] (map B (sym_points i) ++ map rec (sym_points i) ++
               map (fun p => rel_err (rec p) (B p)) (sym_points i)) /\
    (forall p, rec p = B p -> rel_err (rec p) (B p) = 0) /\
    (forall p, 0 < B p -> rel_err (rec p) (B p) = 0 -> rec p = B p).
Proof. exact accuracy_report. Qed.
Example C25_case : valid (obj_of (ex_inp RS true)) (ex_inp RS true) /\ nfp_divides (ex_inp RS true) /\ (0 < verb (ex_inp RS true))%Z.
Proof. exact (conj (ex_valid RS true) (conj (ex_div true) (eq_refl : (0 < 2)%Z))). Qed.

Print Assumptions C11_tables_exact.
Print Assumptions C11_init_trig_exact.
Print Assumptions C12_C14_angles_and_jacobian.
Print Assumptions C13_really_boozer.
Print Assumptions C15_quadrature.
Print Assumptions C16_identity.
Print Assumptions C16_identity_modes.
Print Assumptions C17_sym_asym.
Print Assumptions C18_field_scaling.
Print Assumptions C19_linear.
Print Assumptions C22_mode_order.
Print Assumptions C23_zero_modes_partial.
Print Assumptions C23_zero_00_mode_refuted.
Print Assumptions C24_sample_points.
Print Assumptions C25_accuracy_report.

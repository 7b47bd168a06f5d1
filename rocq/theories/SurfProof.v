(** surface_solve computes the functions of Func.v, touching only its own cells. *)
From Coq Require Import ZArith QArith List String Bool Lia.
From Verif Require Import Scalar Prog Model Wp Func Step TrigProof InitProof.
Import ListNotations.
Local Open Scope Z_scope.

(** ** Objects that agree except on some cells *)
Section Upto.
Context {S : Scalar}.
Notation obj := (obj S).

Record upto (W : afield -> Z -> Prop) (o o' : obj) : Prop := mkUpto {
  u_I : forall f, oI o' f = oI o f;
  u_B : forall f, oB o' f = oB o f;
  u_F : forall f, oF o' f = oF o f;
  u_N : forall f, oN o' f = oN o f;
  u_rows : forall f, arows (oA o' f) = arows (oA o f);
  u_cols : forall f, acols (oA o' f) = acols (oA o f);
  u_len : forall f, List.length (adata (oA o' f)) = List.length (adata (oA o f));
  u_cell : forall f k, ~ W f k -> znth (adata (oA o' f)) k = znth (adata (oA o f)) k
}.

Lemma upto_refl W o : upto W o o.
Proof. constructor; auto. Qed.
Lemma upto_trans W o1 o2 o3 : upto W o1 o2 -> upto W o2 o3 -> upto W o1 o3.
Proof.
  intros [A1 A2 A3 A4 A5 A6 A7 A8] [B1 B2 B3 B4 B5 B6 B7 B8].
  constructor; intros; [now rewrite B1|now rewrite B2|now rewrite B3|now rewrite B4
                       |now rewrite B5|now rewrite B6|now rewrite B7|rewrite B8; auto].
Qed.
Lemma upto_weaken (W W' : afield -> Z -> Prop) o1 o2 :
  (forall f k, W f k -> W' f k) -> upto W o1 o2 -> upto W' o1 o2.
Proof. intros H []. constructor; auto. Qed.

Lemma znth_neg {T} (l : list T) k : k < 0 -> znth l k = None.
Proof. intros. unfold znth. destruct (Z.ltb_spec k 0); [reflexivity|lia]. Qed.

Lemma upto_put (W : afield -> Z -> Prop) o f k x :
  W f k -> 0 <= k -> upto W o (updA o f (aput (oA o f) k x)).
Proof.
  intros H Hk. constructor; auto; intros g; cbn; destruct (afield_eq_dec g f) as [->|]; auto.
  - cbn. apply zset_length.
  - intros l Hl. cbn. apply znth_zset_other; auto. intros ->. contradiction.
Qed.

Lemma znth_ext {T} (l l' : list T) :
  List.length l = List.length l' -> (forall k, znth l k = znth l' k) -> l = l'.
Proof.
  revert l'. induction l as [|a l IH]; intros [|b l'] HL H; try discriminate; auto.
  f_equal.
  - specialize (H 0). change (Some a = Some b) in H. congruence.
  - apply IH; [cbn in HL; congruence|]. intros k.
    destruct (Z.ltb_spec k 0); [now rewrite !znth_neg by lia|].
    specialize (H (k + 1)). unfold znth in *.
    destruct (Z.ltb_spec (k + 1) 0); [lia|]. destruct (Z.ltb_spec k 0); [lia|].
    replace (Z.to_nat (k + 1)) with (Datatypes.S (Z.to_nat k)) in H by lia. exact H.
Qed.

Lemma upto_arr (W : afield -> Z -> Prop) o o' f : upto W o o' -> (forall k, ~ W f k) -> oA o' f = oA o f.
Proof.
  intros U H. pose proof (u_rows _ _ _ U f) as H1. pose proof (u_cols _ _ _ U f) as H2.
  assert (H3 : adata (oA o' f) = adata (oA o f)).
  { apply znth_ext; [apply U|]. intros; apply U; auto. }
  destruct (oA o' f), (oA o f). cbn in *. congruence.
Qed.

(** Members that no surface computation writes. *)
Definition shared (f : afield) : bool :=
  match f with
  | A_bmnc_b | A_gmnc_b | A_rmnc_b | A_zmns_b | A_numns_b
  | A_bmns_b | A_gmns_b | A_rmns_b | A_zmnc_b | A_numnc_b
  | A_Boozer_I | A_Boozer_G => false
  | _ => true
  end.

Record same_shared (o o' : obj) : Prop := mkSame {
  ss_I : forall f, oI o' f = oI o f;
  ss_B : forall f, oB o' f = oB o f;
  ss_F : forall f, oF o' f = oF o f;
  ss_N : forall f, oN o' f = oN o f;
  ss_A : forall f, shared f = true -> oA o' f = oA o f
}.
Lemma upto_same (W : afield -> Z -> Prop) o o' :
  (forall f k, W f k -> shared f = false) -> upto W o o' -> same_shared o o'.
Proof.
  intros H U. constructor; try apply U. intros f Hf. eapply upto_arr; [exact U|].
  intros k HW. apply H in HW. congruence.
Qed.
Lemma same_repr o o' i : same_shared o o' -> repr o i -> repr o' i.
Proof.
  intros [A1 A2 A3 A4 A5] R. destruct R.
  constructor; rewrite ?A1, ?A2, ?A4, ?A5 by reflexivity; auto.
Qed.
Lemma same_grid o o' i : same_shared o o' -> grid_ok S o i -> grid_ok S o' i.
Proof.
  intros [A1 A2 A3 A4 A5] R. destruct R.
  constructor; rewrite ?A1, ?A2, ?A3, ?A4, ?A5 by reflexivity; auto.
Qed.
End Upto.

Section SurfProof.
Variable S : Scalar.
Notation obj := (obj S).
Notation F := (F S).
Variable i : Inp S.
Hypothesis Hok : ok_inp i.
Variable P : fp.
Hypothesis HP : forall f k, shared f = true -> fpR P f k.

Let NP := npts_bounds i Hok.
Let NPI := npts_int i Hok.

(** One surface *)
Section Surface.
Variable b : Z.
Hypothesis Hb : 0 <= b < nsurf i.
Let js := surf i b.
Hypothesis HJ : 0 <= js < nsin i.

(** The cells of surface b *)
Inductive own : afield -> Z -> Prop :=
| own_out f k : In f (outs (asym i)) -> 0 <= k < mnboz i -> own f (k + b * mnboz i)
| own_I : own A_Boozer_I b
| own_G : own A_Boozer_G b.
Hypothesis HR : forall f k, own f k -> fpR P f k.
Hypothesis HW : forall f k, own f k -> fpW P f k.

Lemma outs_not_shared a f : In f (outs a) -> shared f = false.
Proof.
  intros H. destruct a; cbn in H;
    repeat (destruct H as [<-|H]; [reflexivity|]); contradiction.
Qed.
Lemma own_not_shared f k : own f k -> shared f = false.
Proof. intros []; auto. eapply outs_not_shared; eauto. Qed.

Lemma transp_spec (o : obj) w0 wc0 :
  repr o i ->
  vec_is w0 (mnmaxq i) (fun _ => f0 S) -> (asym i = true -> vec_is wc0 (mnmaxq i) (fun _ => f0 S)) ->
  znth (adata (oA o A_Boozer_I)) b = Some (Some (f0 S)) ->
  znth (adata (oA o A_Boozer_G)) b = Some (Some (f0 S)) ->
  wp P (transp S (asym i) js b (mnmaxq i) w0 wc0) o (fun r o' ev => ev = [] /\
    upto own o o' /\ (forall f, f <> A_Boozer_I -> f <> A_Boozer_G -> oA o' f = oA o f) /\
    vec_is (fst r) (mnmaxq i) (wmns i js) /\
    (asym i = true -> vec_is (snd r) (mnmaxq i) (wmnc i js)) /\
    znth (adata (oA o' A_Boozer_I)) b = Some (Some (bI i js)) /\
    znth (adata (oA o' A_Boozer_G)) b = Some (Some (bG i js))).
Proof.
  intros R H0 Hc0 HI HG. unfold transp.
  pose proof (ok_mnmaxq _ _ Hok) as Hq.
  eapply wp_for with (Inv := fun n r o' =>
    upto own o o' /\ (forall f, f <> A_Boozer_I -> f <> A_Boozer_G -> oA o' f = oA o f) /\
    vec_is (fst r) (mnmaxq i) (fun k => if k <? n then wmns i js k else f0 S) /\
    (asym i = true -> vec_is (snd r) (mnmaxq i) (fun k => if k <? n then wmnc i js k else f0 S)) /\
    znth (adata (oA o' A_Boozer_I)) b =
      Some (Some (accum n (fun k acc => if is00 i k then bsubumnc i k js else acc) (f0 S))) /\
    znth (adata (oA o' A_Boozer_G)) b =
      Some (Some (accum n (fun k acc => if is00 i k then bsubvmnc i k js else acc) (f0 S)))).
  - lia.
  - splits; auto.
    + apply upto_refl.
    + eapply vec_ext; [|exact H0]. intros; zb; auto.
    + intros Ea. eapply vec_ext; [|exact (Hc0 Ea)]. intros; zb; auto.
  - intros n (w, wc) o1 Hn (U & Ho & Vw & Vc & CI & CG). cbn [fst snd] in *.
    pose proof (upto_same _ _ _ own_not_shared U) as SS. pose proof (same_repr _ _ _ SS R) as R1.
    rewrite !accum_succ by lia. unfold is00 at 1 3.
    eapply wp_getn; [exact (r_xmq _ _ _ R1)|lia|].
    eapply wp_getn; [exact (r_xnq _ _ _ R1)|lia|].
    assert (Ew : forall x a, vec_is a (mnmaxq i) (fun l => if l =? n then x else if l <? n then wmns i js l else f0 S) ->
      x = wmns i js n -> vec_is a (mnmaxq i) (fun k => if k <? n + 1 then wmns i js k else f0 S)).
    { intros x a Ha ->. eapply vec_ext; [|exact Ha]. intros k Hk. destruct (Z.eq_dec k n) as [->|]; zb; auto. }
    assert (Ec : forall x a, vec_is a (mnmaxq i) (fun l => if l =? n then x else if l <? n then wmnc i js l else f0 S) ->
      x = wmnc i js n -> vec_is a (mnmaxq i) (fun k => if k <? n + 1 then wmnc i js k else f0 S)).
    { intros x a Ha ->. eapply vec_ext; [|exact Ha]. intros k Hk. destruct (Z.eq_dec k n) as [->|]; zb; auto. }
    destruct (Z.eqb_spec (xmq i n) 0) as [Em|Em]; cbn [negb andb].
    + destruct (Z.eqb_spec (xnq i n) 0) as [En|En]; cbn [negb andb].
      * eapply wp_getm; [exact (r_bsubumnc _ _ _ R1)|lia|lia|apply HP; reflexivity|].
        eapply wp_putv; [eauto|apply HW; constructor|].
        eapply wp_getm; [cbn; exact (r_bsubvmnc _ _ _ R1)|lia|lia|apply HP; reflexivity|].
        eapply wp_putv; [cbn; eauto|apply HW; constructor|].
        cbn [wp fst snd]. splits; auto.
        -- eapply upto_trans; [exact U|]. eapply upto_trans; [apply (upto_put own o1 A_Boozer_I b); [constructor|lia]|].
           apply upto_put; [constructor|lia].
        -- intros f N1 N2. cbn. destruct (afield_eq_dec f A_Boozer_G); [contradiction|].
           destruct (afield_eq_dec f A_Boozer_I); [contradiction|]. auto.
        -- eapply vec_ext; [|exact Vw]. intros k Hk. destruct (Z.eq_dec k n) as [->|]; zb; auto.
           unfold wmns. now rewrite Em, En.
        -- intros Ea. eapply vec_ext; [|exact (Vc Ea)]. intros k Hk. destruct (Z.eq_dec k n) as [->|]; zb; auto.
           unfold wmnc. now rewrite Em, En.
        -- cbn. apply znth_zset_same. apply znth_Some. eauto.
        -- cbn. apply znth_zset_same. apply znth_Some. eauto.
      * assert (E1 : (- bsubvmnc i n js / fofZ S (xnq i n))%sc = wmns i js n).
        { unfold wmns. rewrite (proj2 (Z.eqb_eq _ _) Em). cbn [negb]. now rewrite (proj2 (Z.eqb_neq _ _) En). }
        eapply wp_getm; [exact (r_bsubvmnc _ _ _ R1)|lia|lia|apply HP; reflexivity|].
        eapply wp_vset; [exact Vw|lia|]. intros w' Hw'.
        destruct (asym i) eqn:Ea.
        -- assert (E2 : (bsubvmns i n js / fofZ S (xnq i n))%sc = wmnc i js n).
           { unfold wmnc. rewrite (proj2 (Z.eqb_eq _ _) Em). cbn [negb]. now rewrite (proj2 (Z.eqb_neq _ _) En). }
           eapply wp_getm; [exact (r_bsubvmns _ _ _ R1 Ea)|lia|lia|apply HP; reflexivity|].
           eapply wp_vset; [exact (Vc eq_refl)|lia|]. intros wc' Hwc'.
           cbn [wp fst snd]. splits; auto; eauto.
        -- cbn [wp fst snd]. splits; auto; eauto. intros; discriminate.
    + assert (E1 : (bsubumnc i n js / fofZ S (xmq i n))%sc = wmns i js n).
      { unfold wmns. now rewrite (proj2 (Z.eqb_neq _ _) Em). }
      eapply wp_getm; [exact (r_bsubumnc _ _ _ R1)|lia|lia|apply HP; reflexivity|].
      eapply wp_vset; [exact Vw|lia|]. intros w' Hw'.
      destruct (asym i) eqn:Ea.
      * assert (E2 : (- bsubumns i n js / fofZ S (xmq i n))%sc = wmnc i js n).
        { unfold wmnc. now rewrite (proj2 (Z.eqb_neq _ _) Em). }
        eapply wp_getm; [exact (r_bsubumns _ _ _ R1 Ea)|lia|lia|apply HP; reflexivity|].
        eapply wp_vset; [exact (Vc eq_refl)|lia|]. intros wc' Hwc'.
        cbn [wp fst snd]. splits; auto; eauto.
      * cbn [wp fst snd]. splits; auto; eauto. intros; discriminate.
  - intros (w, wc) o1 (U & Ho & Vw & Vc & CI & CG). cbn [fst snd] in *. splits; auto.
    + eapply vec_ext; [|exact Vw]. intros; zb; auto.
    + intros Ea. eapply vec_ext; [|exact (Vc Ea)]. intros; zb; auto.
Qed.

(** ** Fourier sums on the grid *)
Lemma fsum_succ n (sy an : Z -> F) : 0 <= n ->
  fsum i (n + 1) sy an =
  if asym i then (fsum i n sy an + sy n + an n)%sc else (fsum i n sy an + sy n)%sc.
Proof. intros. unfold fsum. now rewrite accum_succ by auto. Qed.

(** The partial sums over the first n modes, at grid point l. *)
Definition part (n : Z) (sy an : Z -> Z -> F) (l : Z) : F := fsum i n (sy l) (an l).
Definition part2 (n j : Z) (sy an : Z -> Z -> F) (l : Z) : F :=
  if l <? j then part (n + 1) sy an l else part n sy an l.

Lemma part2_0 n N sy an (a : arr S) :
  vec_is a N (part n sy an) -> vec_is a N (part2 n 0 sy an).
Proof. apply vec_ext. intros l Hl. unfold part2. zb; auto. Qed.
Lemma part2_N n N sy an (a : arr S) :
  vec_is a N (part2 n N sy an) -> vec_is a N (part (n + 1) sy an).
Proof. apply vec_ext. intros l Hl. unfold part2. zb; auto. Qed.
Lemma part_0 N sy an (a : arr S) : vec_is a N (fun _ => f0 S) -> vec_is a N (part 0 sy an).
Proof. apply vec_ext. intros; reflexivity. Qed.
Lemma part2_sym n j N sy an (a : arr S) x :
  asym i = false -> 0 <= n -> x = sy j n ->
  vec_is a N (fun l => if l =? j then (part2 n j sy an j + x)%sc else part2 n j sy an l) ->
  vec_is a N (part2 n (j + 1) sy an).
Proof.
  intros Ea Hn ->. apply vec_ext. intros l Hl. unfold part2.
  destruct (Z.eq_dec l j) as [->|]; zb; auto.
  unfold part. rewrite fsum_succ by auto. now rewrite Ea.
Qed.
Lemma part2_asym n j N sy an (a : arr S) x y :
  asym i = true -> 0 <= n -> x = sy j n -> y = an j n ->
  vec_is a N (fun l => if l =? j then ((if j =? j then part2 n j sy an j + x else part2 n j sy an j) + y)%sc
                       else if l =? j then (part2 n j sy an j + x)%sc else part2 n j sy an l) ->
  vec_is a N (part2 n (j + 1) sy an).
Proof.
  intros Ea Hn -> ->. apply vec_ext. intros l Hl. unfold part2.
  destruct (Z.eq_dec l j) as [->|]; zb; auto.
  unfold part. rewrite fsum_succ by auto. now rewrite Ea.
Qed.

Section Sums.
Variables cc ss : Z -> Z -> F.   (* cos, sin of mode k at point l: arguments l k *)
Definition sy_r l k := (cc l k * rmnc i k js)%sc.
Definition an_r l k := (ss l k * rmns i k js)%sc.
Definition sy_z l k := (ss l k * zmns i k js)%sc.
Definition an_z l k := (cc l k * zmnc i k js)%sc.
Definition sy_l l k := (ss l k * lmns i k js)%sc.
Definition an_l l k := (cc l k * lmnc i k js)%sc.
Definition sy_lt l k := (cc l k * lmns i k js * fofZ S (xm i k))%sc.
Definition an_lt l k := (- ss l k * lmnc i k js * fofZ S (xm i k))%sc.
Definition sy_lz l k := (- cc l k * lmns i k js * fofZ S (xn i k))%sc.
Definition an_lz l k := (ss l k * lmnc i k js * fofZ S (xn i k))%sc.
Definition sy_w l k := (ss l k * wmns i js k)%sc.
Definition an_w l k := (cc l k * wmnc i js k)%sc.
Definition sy_wt l k := (cc l k * wmns i js k * fofZ S (xmq i k))%sc.
Definition an_wt l k := (- ss l k * wmnc i js k * fofZ S (xmq i k))%sc.
Definition sy_wz l k := (- cc l k * wmns i js k * fofZ S (xnq i k))%sc.
Definition an_wz l k := (ss l k * wmnc i js k * fofZ S (xnq i k))%sc.
Definition sy_b l k := (cc l k * bmnc i k js)%sc.
Definition an_b l k := (ss l k * bmns i k js)%sc.
End Sums.

Definition pcg l k := pcosA (nfp i) (thg i l) (zeg i l) (xm i k) (xn i k).
Definition psg l k := psinA (nfp i) (thg i l) (zeg i l) (xm i k) (xn i k).
Definition qcg l k := pcosA (nfp i) (thg i l) (zeg i l) (xmq i k) (xnq i k).
Definition qsg l k := psinA (nfp i) (thg i l) (zeg i l) (xmq i k) (xnq i k).

Lemma vcoords_rz_spec (o : obj) zero :
  repr o i -> grid_ok S o i ->
  vec_is zero (npts i) (fun _ => f0 S) ->
  wp P (vcoords_rz S (asym i) js (mnmax i) (nfp i) (npts i) (mkRzl S zero zero zero zero zero)) o
    (fun r o' ev => ev = [] /\ o' = o /\
      vec_is (vr S r) (npts i) (fun l => p_r i js (thg i l) (zeg i l)) /\
      vec_is (vz S r) (npts i) (fun l => p_z i js (thg i l) (zeg i l)) /\
      vec_is (vlam S r) (npts i) (fun l => p_lam i js (thg i l) (zeg i l)) /\
      vec_is (vdlt S r) (npts i) (fun l => p_lt i js (thg i l) (zeg i l)) /\
      vec_is (vdlz S r) (npts i) (fun l => p_lz i js (thg i l) (zeg i l))).
Proof.
  intros R G Hz. unfold vcoords_rz.
  pose proof (ok_mnmax _ _ Hok) as Hmn. pose proof (ok_nfp _ _ Hok) as Hnf.
  set (N := npts i) in *.
  eapply wp_mono; [|eapply wp_for_pure with (Inv := fun n r =>
    vec_is (vr S r) N (part n (sy_r pcg) (an_r psg)) /\
    vec_is (vz S r) N (part n (sy_z psg) (an_z pcg)) /\
    vec_is (vlam S r) N (part n (sy_l psg) (an_l pcg)) /\
    vec_is (vdlt S r) N (part n (sy_lt pcg) (an_lt psg)) /\
    vec_is (vdlz S r) N (part n (sy_lz pcg) (an_lz psg)))].
  - cbv beta. intros r o' ev (-> & -> & A1 & A2 & A3 & A4 & A5). splits; auto.
  - lia.
  - cbn [vr vz vlam vdlt vdlz]. splits; apply part_0; exact Hz.
  - intros n r Hn (A1 & A2 & A3 & A4 & A5).
    pose proof (ok_xm _ _ Hok n Hn) as Hxm. destruct (ok_xn _ _ Hok n Hn) as (Hx1 & Hx2).
    pose proof (kn_nonneg (nfp i) (xn i n)) as Hk0.
    pose proof (quot_bound (nfp i) (xn i n) ltac:(lia)) as Hqb.
    eapply wp_getn; [exact (r_xm _ _ _ R)|lia|].
    eapply wp_getn; [exact (r_xn _ _ _ R)|lia|].
    eapply wp_iabs; [lia|].
    eapply wp_idiv; [lia|rewrite kn_alt by lia; unfold kn in *; unfold INT_MIN, INT_MAX in *; lia|].
    rewrite kn_alt by lia.
    eapply wp_mono; [|eapply wp_for_pure with (Inv := fun j r =>
      vec_is (vr S r) N (part2 n j (sy_r pcg) (an_r psg)) /\
      vec_is (vz S r) N (part2 n j (sy_z psg) (an_z pcg)) /\
      vec_is (vlam S r) N (part2 n j (sy_l psg) (an_l pcg)) /\
      vec_is (vdlt S r) N (part2 n j (sy_lt pcg) (an_lt psg)) /\
      vec_is (vdlz S r) N (part2 n j (sy_lz pcg) (an_lz psg)))].
    + cbv beta. intros r' o' ev (-> & -> & B1 & B2 & B3 & B4 & B5). splits; auto; apply part2_N; auto.
    + subst N. lia.
    + splits; apply part2_0; auto.
    + clear A1 A2 A3 A4 A5 r. intros j r Hj (A1 & A2 & A3 & A4 & A5).
      eapply wp_getm; [exact (g_cosm _ _ _ G)|exact Hj|lia|apply HP; reflexivity|].
      eapply wp_getm; [exact (g_cosn _ _ _ G)|exact Hj|lia|apply HP; reflexivity|].
      eapply wp_getm; [exact (g_sinm _ _ _ G)|exact Hj|lia|apply HP; reflexivity|].
      eapply wp_getm; [exact (g_sinn _ _ _ G)|exact Hj|lia|apply HP; reflexivity|].
      cbv zeta.
      eapply wp_getm; [exact (r_rmnc _ _ _ R)|lia|exact HJ|apply HP; reflexivity|].
      eapply wp_vinc; [exact A1|exact Hj|]. intros r1 B1.
      eapply wp_getm; [exact (r_zmns _ _ _ R)|lia|exact HJ|apply HP; reflexivity|].
      eapply wp_vinc; [exact A2|exact Hj|]. intros z1 B2.
      eapply wp_getm; [exact (r_lmns _ _ _ R)|lia|exact HJ|apply HP; reflexivity|].
      eapply wp_vinc; [exact A3|exact Hj|]. intros l1 B3.
      eapply wp_vinc; [exact A4|exact Hj|]. intros lt1 B4.
      eapply wp_vinc; [exact A5|exact Hj|]. intros lz1 B5.
      destruct (asym i) eqn:Ea; cbn [negb].
      * eapply wp_getm; [exact (r_rmns _ _ _ R Ea)|lia|exact HJ|apply HP; reflexivity|].
        eapply wp_vinc; [exact B1|exact Hj|]. intros r2 C1.
        eapply wp_getm; [exact (r_zmnc _ _ _ R Ea)|lia|exact HJ|apply HP; reflexivity|].
        eapply wp_vinc; [exact B2|exact Hj|]. intros z2 C2.
        eapply wp_getm; [exact (r_lmnc _ _ _ R Ea)|lia|exact HJ|apply HP; reflexivity|].
        eapply wp_vinc; [exact B3|exact Hj|]. intros l2 C3.
        eapply wp_vinc; [exact B4|exact Hj|]. intros lt2 C4.
        eapply wp_vinc; [exact B5|exact Hj|]. intros lz2 C5.
        cbn [wp vr vz vlam vdlt vdlz]. splits; auto;
          (match goal with H : vec_is ?a _ _ |- vec_is ?a _ _ => eapply part2_asym; [exact Ea|lia| | |exact H]; reflexivity end).
      * cbn [wp vr vz vlam vdlt vdlz]. splits; auto;
          (match goal with H : vec_is ?a _ _ |- vec_is ?a _ _ => eapply part2_sym; [exact Ea|lia| |exact H]; reflexivity end).
Qed.

Lemma vcoords_w_spec (o : obj) zero ws wc :
  repr o i -> grid_ok S o i ->
  vec_is zero (npts i) (fun _ => f0 S) ->
  vec_is ws (mnmaxq i) (wmns i js) -> (asym i = true -> vec_is wc (mnmaxq i) (wmnc i js)) ->
  wp P (vcoords_w S (asym i) js (mnmaxq i) (nfp i) (npts i) ws wc (mkWb S zero zero zero zero)) o
    (fun r o' ev => ev = [] /\ o' = o /\
      vec_is (vw S r) (npts i) (fun l => p_w i js (thg i l) (zeg i l)) /\
      vec_is (vdwt S r) (npts i) (fun l => p_wt i js (thg i l) (zeg i l)) /\
      vec_is (vdwz S r) (npts i) (fun l => p_wz i js (thg i l) (zeg i l)) /\
      vec_is (vbmod S r) (npts i) (fun l => p_b i js (thg i l) (zeg i l))).
Proof.
  intros R G Hz Hws Hwc. unfold vcoords_w.
  pose proof (ok_mnmaxq _ _ Hok) as Hmn. pose proof (ok_nfp _ _ Hok) as Hnf.
  set (N := npts i) in *.
  eapply wp_mono; [|eapply wp_for_pure with (Inv := fun n r =>
    vec_is (vw S r) N (part n (sy_w qsg) (an_w qcg)) /\
    vec_is (vdwt S r) N (part n (sy_wt qcg) (an_wt qsg)) /\
    vec_is (vdwz S r) N (part n (sy_wz qcg) (an_wz qsg)) /\
    vec_is (vbmod S r) N (part n (sy_b qcg) (an_b qsg)))].
  - cbv beta. intros r o' ev (-> & -> & A1 & A2 & A3 & A4). splits; auto.
  - lia.
  - cbn [vw vdwt vdwz vbmod]. splits; apply part_0; exact Hz.
  - intros n r Hn (A1 & A2 & A3 & A4).
    pose proof (ok_xmq _ _ Hok n Hn) as Hxm. destruct (ok_xnq _ _ Hok n Hn) as (Hx1 & Hx2).
    pose proof (kn_nonneg (nfp i) (xnq i n)) as Hk0.
    pose proof (quot_bound (nfp i) (xnq i n) ltac:(lia)) as Hqb.
    eapply wp_getn; [exact (r_xmq _ _ _ R)|lia|].
    eapply wp_getn; [exact (r_xnq _ _ _ R)|lia|].
    eapply wp_idiv; [lia|unfold INT_MIN, INT_MAX in *; lia|].
    eapply wp_iabs; [lia|].
    change (Z.abs (Z.quot (xnq i n) (nfp i))) with (kn (nfp i) (xnq i n)).
    eapply wp_mono; [|eapply wp_for_pure with (Inv := fun j r =>
      vec_is (vw S r) N (part2 n j (sy_w qsg) (an_w qcg)) /\
      vec_is (vdwt S r) N (part2 n j (sy_wt qcg) (an_wt qsg)) /\
      vec_is (vdwz S r) N (part2 n j (sy_wz qcg) (an_wz qsg)) /\
      vec_is (vbmod S r) N (part2 n j (sy_b qcg) (an_b qsg)))].
    + cbv beta. intros r' o' ev (-> & -> & B1 & B2 & B3 & B4). splits; auto; apply part2_N; auto.
    + subst N. lia.
    + splits; apply part2_0; auto.
    + clear A1 A2 A3 A4 r. intros j r Hj (A1 & A2 & A3 & A4).
      eapply wp_getm; [exact (g_cosmq _ _ _ G)|exact Hj|lia|apply HP; reflexivity|].
      eapply wp_getm; [exact (g_cosnq _ _ _ G)|exact Hj|lia|apply HP; reflexivity|].
      eapply wp_getm; [exact (g_sinmq _ _ _ G)|exact Hj|lia|apply HP; reflexivity|].
      eapply wp_getm; [exact (g_sinnq _ _ _ G)|exact Hj|lia|apply HP; reflexivity|].
      cbv zeta.
      eapply wp_vget; [exact Hws|lia|].
      eapply wp_vinc; [exact A1|exact Hj|]. intros r1 B1.
      eapply wp_vinc; [exact A2|exact Hj|]. intros z1 B2.
      eapply wp_vinc; [exact A3|exact Hj|]. intros l1 B3.
      eapply wp_getm; [exact (r_bmnc _ _ _ R)|lia|exact HJ|apply HP; reflexivity|].
      eapply wp_vinc; [exact A4|exact Hj|]. intros lt1 B4.
      destruct (asym i) eqn:Ea; cbn [negb].
      * eapply wp_vget; [exact (Hwc eq_refl)|lia|].
        eapply wp_vinc; [exact B1|exact Hj|]. intros r2 C1.
        eapply wp_vinc; [exact B2|exact Hj|]. intros z2 C2.
        eapply wp_vinc; [exact B3|exact Hj|]. intros l2 C3.
        eapply wp_getm; [exact (r_bmns _ _ _ R Ea)|lia|exact HJ|apply HP; reflexivity|].
        eapply wp_vinc; [exact B4|exact Hj|]. intros lt2 C4.
        cbn [wp vw vdwt vdwz vbmod]. splits; auto;
          (match goal with H : vec_is ?a _ _ |- vec_is ?a _ _ => eapply part2_asym; [exact Ea|lia| | |exact H]; reflexivity end).
      * cbn [wp vw vdwt vdwz vbmod]. splits; auto;
          (match goal with H : vec_is ?a _ _ |- vec_is ?a _ _ => eapply part2_sym; [exact Ea|lia| |exact H]; reflexivity end).
Qed.

Lemma vexpr_spec (o : obj) N v g0 (e : Z -> prog S F) (g : Z -> F) :
  0 <= N -> vec_is v N g0 ->
  (forall j, 0 <= j < N -> wp P (e j) o (fun x o' ev => ev = [] /\ o' = o /\ x = g j)) ->
  wp P (vexpr S N v e) o (fun r o' ev => ev = [] /\ o' = o /\ vec_is r N g).
Proof.
  intros HN Hv He. unfold vexpr.
  eapply wp_mono; [|eapply wp_for_pure with (Inv := fun j r => vec_is r N (fun l => if l <? j then g l else g0 l))].
  - cbv beta. intros r o' ev (-> & -> & A). splits; auto. eapply vec_ext; [|exact A]. intros; zb; auto.
  - lia.
  - eapply vec_ext; [|exact Hv]. intros; zb; auto.
  - intros j r Hj A. eapply wp_sub; [apply He; auto|]. intros x ->.
    unfold vset. pose proof A as (_ & _ & _ & E). rewrite E by auto. cbn [wp]. splits; auto.
    eapply vec_ext; [|apply vec_is_put; [exact Hj|exact A]].
    intros l Hl. destruct (Z.eq_dec l j) as [->|]; zb; auto.
Qed.

Lemma harfun_spec (o : obj) a w zero :
  repr o i -> grid_ok S o i ->
  vec_is zero (npts i) (fun _ => f0 S) ->
  vec_is (vlam S a) (npts i) (fun l => p_lam i js (thg i l) (zeg i l)) ->
  vec_is (vdlt S a) (npts i) (fun l => p_lt i js (thg i l) (zeg i l)) ->
  vec_is (vdlz S a) (npts i) (fun l => p_lz i js (thg i l) (zeg i l)) ->
  vec_is (vw S w) (npts i) (fun l => p_w i js (thg i l) (zeg i l)) ->
  vec_is (vdwt S w) (npts i) (fun l => p_wt i js (thg i l) (zeg i l)) ->
  vec_is (vdwz S w) (npts i) (fun l => p_wz i js (thg i l) (zeg i l)) ->
  znth (adata (oA o A_Boozer_I)) b = Some (Some (bI i js)) ->
  znth (adata (oA o A_Boozer_G)) b = Some (Some (bG i js)) ->
  wp P (harfun S js b (npts i) a w zero) o (fun h o' ev => ev = [] /\ o' = o /\
    vec_is (hnu S h) (npts i) (fun l => p_nu i js (thg i l) (zeg i l)) /\
    vec_is (hth S h) (npts i) (bth i js) /\
    vec_is (hze S h) (npts i) (bze i js) /\
    vec_is (hjac S h) (npts i) (fun l => p_jac i js (thg i l) (zeg i l))).
Proof.
  intros R G Hz L Lt Lz W Wt Wz CI CG. unfold harfun.
  eapply wp_getv; [exact (r_iota _ _ _ R)|exact HJ|apply HP; reflexivity|].
  eapply wp_cell; [exact CG|apply HR; constructor|].
  eapply wp_cell; [exact CI|apply HR; constructor|].
  cbv zeta. change (f1 S / (bG i js + iota i js * bI i js))%sc with (oGI i js).
  eapply wp_sub; [eapply vexpr_spec with (g := fun l => p_nu i js (thg i l) (zeg i l)); [lia|exact Hz|]|].
  { intros j Hj. eapply wp_vget; [exact W|exact Hj|]. eapply wp_vget; [exact L|exact Hj|].
    cbn [wp]. splits; auto. }
  intros nu Hnu.
  eapply wp_sub; [eapply vexpr_spec with (g := bth i js); [lia|exact Hz|]|].
  { intros j Hj. eapply wp_getv; [exact (g_thg _ _ _ G)|exact Hj|apply HP; reflexivity|].
    eapply wp_vget; [exact L|exact Hj|]. eapply wp_vget; [exact Hnu|exact Hj|].
    cbn [wp]. splits; auto. }
  intros th Hth.
  eapply wp_sub; [eapply vexpr_spec with (g := bze i js); [lia|exact Hz|]|].
  { intros j Hj. eapply wp_getv; [exact (g_zeg _ _ _ G)|exact Hj|apply HP; reflexivity|].
    eapply wp_vget; [exact Hnu|exact Hj|].
    cbn [wp]. splits; auto. }
  intros ze Hze.
  eapply wp_sub; [eapply vexpr_spec with (g := fun l => p_nuz i js (thg i l) (zeg i l)); [lia|exact Hz|]|].
  { intros j Hj. eapply wp_vget; [exact Wz|exact Hj|]. eapply wp_vget; [exact Lz|exact Hj|].
    cbn [wp]. splits; auto. }
  intros nuz Hnuz.
  eapply wp_sub; [eapply vexpr_spec with (g := fun l => p_nut i js (thg i l) (zeg i l)); [lia|exact Hz|]|].
  { intros j Hj. eapply wp_vget; [exact Wt|exact Hj|]. eapply wp_vget; [exact Lt|exact Hj|].
    cbn [wp]. splits; auto. }
  intros nut Hnut.
  eapply wp_sub; [eapply vexpr_spec with (g := fun l => p_jac i js (thg i l) (zeg i l)); [lia|exact Hz|]|].
  { intros j Hj. eapply wp_vget; [exact Lt|exact Hj|]. eapply wp_vget; [exact Hnuz|exact Hj|].
    eapply wp_vget; [exact Lz|exact Hj|]. eapply wp_vget; [exact Hnut|exact Hj|].
    cbn [wp]. splits; auto. }
  intros jac Hjac. cbn [wp hnu hth hze hjac]. splits; auto.
Qed.

(** ** The half weights *)
Lemma halve_spec (o : obj) R C lo hi m t gc gs :
  0 <= lo -> lo <= hi <= R -> 0 <= m < C ->
  mat_is (tcosm S t) R C gc -> mat_is (tsinm S t) R C gs ->
  wp P (halve S lo hi m t) o (fun t' o' ev => ev = [] /\ o' = o /\
    tcosn S t' = tcosn S t /\ tsinn S t' = tsinn S t /\
    mat_is (tcosm S t') R C (fun j k => if (k =? m) && (lo <=? j) && (j <? hi) then (flit S (1 # 2) * gc j k)%sc else gc j k) /\
    mat_is (tsinm S t') R C (fun j k => if (k =? m) && (lo <=? j) && (j <? hi) then (flit S (1 # 2) * gs j k)%sc else gs j k)).
Proof.
  intros H1 H2 H3 Mc Ms. unfold halve.
  eapply wp_mono; [|eapply wp_for_pure with (Inv := fun n t' =>
    tcosn S t' = tcosn S t /\ tsinn S t' = tsinn S t /\
    mat_is (tcosm S t') R C (fun j k => if (k =? m) && (lo <=? j) && (j <? n) then (flit S (1 # 2) * gc j k)%sc else gc j k) /\
    mat_is (tsinm S t') R C (fun j k => if (k =? m) && (lo <=? j) && (j <? n) then (flit S (1 # 2) * gs j k)%sc else gs j k))].
  - cbv beta. auto.
  - lia.
  - splits; auto; (eapply mat_ext; [|eassumption]); intros; zb; auto.
  - intros n t' Hn (E1 & E2 & A1 & A2).
    eapply wp_mget; [exact A1|lia|lia|].
    eapply wp_mset; [exact A1|lia|lia|]. intros c B1.
    eapply wp_mget; [exact A2|lia|lia|].
    eapply wp_mset; [exact A2|lia|lia|]. intros s' B2.
    cbn [wp tcosm tsinm tcosn tsinn]. splits; auto.
    + eapply mat_ext; [|exact B1]. intros j k Hj Hk.
      destruct (Z.eq_dec j n) as [->|]; destruct (Z.eq_dec k m) as [->|]; zb; auto.
    + eapply mat_ext; [|exact B2]. intros j k Hj Hk.
      destruct (Z.eq_dec j n) as [->|]; destruct (Z.eq_dec k m) as [->|]; zb; auto.
Qed.

Lemma half_weights_spec (o : obj) t gc gs :
  mat_is (tcosm S t) (npts i) (mboz i + 1) gc -> mat_is (tsinm S t) (npts i) (mboz i + 1) gs ->
  wp P (half_weights S (asym i) (nzeta i) (nu2 i) (mboz i) t) o (fun t' o' ev => ev = [] /\ o' = o /\
    tcosn S t' = tcosn S t /\ tsinn S t' = tsinn S t /\
    mat_is (tcosm S t') (npts i) (mboz i + 1) (fun j k => wgt i j (gc j k)) /\
    mat_is (tsinm S t') (npts i) (mboz i + 1) (fun j k => wgt i j (gs j k))).
Proof.
  intros Mc Ms. unfold half_weights, wgt, half_pt.
  pose proof (ok_mboz _ _ Hok) as Hm. pose proof (nzeta_pos i Hok) as Hnz.
  pose proof (nu2_eq i) as Hnu2. pose proof (nzeta_le i Hok). pose proof (ntheta_le i Hok).
  pose proof (ok_grid _ _ Hok) as Hgr.
  assert (Imin : INT_MIN = -2147483648) by reflexivity.
  assert (Imax : INT_MAX = 2147483647) by reflexivity.
  destruct (asym i) eqn:Ea; cbn [negb andb].
  - cbn [wp]. splits; auto.
  - assert (Enp : npts i = nu2 i * nzeta i) by (unfold npts, nu3; now rewrite Ea).
    assert (Hnt : 2 * nu2 i <= ntheta i + 2) by (unfold ntheta in *; lia).
    assert (0 <= nzeta i * (nu2 i - 1)) by nia.
    assert (nzeta i * (nu2 i - 1) = npts i - nzeta i) by nia.
    assert (2 * nzeta i <= npts i) by nia.
    eapply wp_isub; [unfold ntheta in *; lia|].
    eapply wp_imul; [lia|].
    eapply wp_iadd; [lia|]. eapply wp_isub; [lia|]. eapply wp_iadd; [lia|].
    replace (nzeta i * (nu2 i - 1) + 1 - 1) with (nzeta i * (nu2 i - 1)) by lia.
    eapply wp_mono; [|eapply wp_for_pure with (Inv := fun n t' =>
      tcosn S t' = tcosn S t /\ tsinn S t' = tsinn S t /\
      mat_is (tcosm S t') (npts i) (mboz i + 1) (fun j k => if (k <? n) && ((j <? nzeta i) || (nzeta i * (nu2 i - 1) <=? j)) then (flit S (1 # 2) * gc j k)%sc else gc j k) /\
      mat_is (tsinm S t') (npts i) (mboz i + 1) (fun j k => if (k <? n) && ((j <? nzeta i) || (nzeta i * (nu2 i - 1) <=? j)) then (flit S (1 # 2) * gs j k)%sc else gs j k))].
    + cbv beta. intros t' o' ev (-> & -> & E1 & E2 & A1 & A2). splits; auto.
      * eapply mat_ext; [|exact A1]. intros j k Hj Hk; cbv beta; rewrite (proj2 (Z.ltb_lt k (mboz i + 1))) by lia; reflexivity.
      * eapply mat_ext; [|exact A2]. intros j k Hj Hk; cbv beta; rewrite (proj2 (Z.ltb_lt k (mboz i + 1))) by lia; reflexivity.
    + lia.
    + splits; auto; (eapply mat_ext; [|eassumption]); intros j k Hj Hk;
        rewrite (proj2 (Z.ltb_ge k 0)) by lia; reflexivity.
    + intros n t' Hn (E1 & E2 & A1 & A2).
      eapply wp_sub; [eapply halve_spec; [| | |exact A1|exact A2]; lia|].
      intros t1 (F1 & F2 & B1 & B2).
      eapply wp_mono; [|eapply halve_spec; [| | |exact B1|exact B2]; lia].
      cbv beta. intros t2 o' ev (-> & -> & G1 & G2 & C1 & C2). splits; auto; try congruence.
      * eapply mat_ext; [|exact C1]. intros j k Hj Hk.
        destruct (Z.eq_dec k n) as [->|]; zb; auto.
      * eapply mat_ext; [|exact C2]. intros j k Hj Hk.
        destruct (Z.eq_dec k n) as [->|]; zb; auto.
Qed.

(** ** The cells of this surface in the output matrices *)
Definition cols (o : obj) (C : afield -> Z -> F) : Prop :=
  forall f, In f (outs (asym i)) -> (arows (oA o f) = mnboz i /\ acols (oA o f) = nsurf i) /\
    forall k, 0 <= k < mnboz i -> znth (adata (oA o f)) (k + b * mnboz i) = Some (Some (C f k)).

Lemma cols_ext o (C D : afield -> Z -> F) :
  (forall f k, In f (outs (asym i)) -> 0 <= k < mnboz i -> C f k = D f k) -> cols o C -> cols o D.
Proof.
  intros H HC f Hf. destruct (HC f Hf) as (H1 & H2). split; auto.
  intros k Hk. rewrite H2 by auto. now rewrite H.
Qed.

Definition inc1 (k : Z) (f : afield) (x : F) (C : afield -> Z -> F) : afield -> Z -> F :=
  fun g l => if afield_eq_dec g f then (if l =? k then (C f k + x)%sc else C g l) else C g l.
Lemma inc1_same k f x C : inc1 k f x C f k = (C f k + x)%sc.
Proof. unfold inc1. destruct (afield_eq_dec f f); [|contradiction]. now rewrite Z.eqb_refl. Qed.
Lemma inc1_row k f x C g l : l <> k -> inc1 k f x C g l = C g l.
Proof. intros. unfold inc1. destruct (afield_eq_dec g f); zb; auto. Qed.
Lemma inc1_other k f x C g l : g <> f -> inc1 k f x C g l = C g l.
Proof. intros. unfold inc1. destruct (afield_eq_dec g f); [contradiction|reflexivity]. Qed.
Fixpoint incC (k : Z) (l : list (afield * F)) (C : afield -> Z -> F) : afield -> Z -> F :=
  match l with
  | [] => C
  | (f, x) :: l' => incC k l' (inc1 k f x C)
  end.

(** Only the output matrices change. *)
Definition keep (o o' : obj) : Prop := forall f, ~ In f (outs (asym i)) -> oA o' f = oA o f.
Lemma keep_trans o1 o2 o3 : keep o1 o2 -> keep o2 o3 -> keep o1 o3.
Proof. intros H1 H2 f Hf. rewrite H2 by auto. auto. Qed.

Lemma incs_spec k (l : list (afield * F)) : forall (o : obj) C,
  0 <= k < mnboz i -> (forall p, In p l -> In (fst p) (outs (asym i))) -> cols o C ->
  wp P (incs S k b l) o (fun _ o' ev => ev = [] /\ upto own o o' /\ keep o o' /\ cols o' (incC k l C)).
Proof.
  induction l as [|(f, x) l IH]; intros o C Hk Hl HC.
  - cbn. splits; auto. apply upto_refl. red; auto.
  - cbn [incs incC].
    assert (Hf : In f (outs (asym i))) by (apply (Hl (f, x)); left; reflexivity).
    destruct (HC f Hf) as ((Er & Es) & Ec).
    assert (Hc0 : 0 <= k + b * mnboz i) by nia.
    assert (Ho : own f (k + b * mnboz i)) by (constructor; auto).
    eapply wp_bind0 with (R := fun _ o' => upto own o o' /\ keep o o' /\ cols o' (inc1 k f x C)).
    + unfold incm. cbn. rewrite Er, Es, inside_true by auto. cbn. rewrite ?Er, ?Es.
      split; [apply HR; exact Ho|].
      eexists. split; [apply Ec; exact Hk|]. rewrite ?inside_true by auto. cbn.
      split; [apply HW; exact Ho|]. split; [eexists; apply Ec; exact Hk|].
      splits; auto.
      * apply upto_put; auto.
      * intros g Hg. cbn. destruct (afield_eq_dec g f) as [->|]; [contradiction|reflexivity].
      * intros g Hg. destruct (HC g Hg) as (Er' & Ec'). cbn. unfold inc1.
        destruct (afield_eq_dec g f) as [->|].
        -- cbn. split; [split; [exact Er|exact Es]|]. intros k' Hk'.
           destruct (Z.eqb_spec k' k) as [->|].
           ++ apply znth_zset_same. apply znth_Some. eexists. apply Ec. exact Hk.
           ++ rewrite znth_zset_other; [apply Ec; exact Hk'|lia|]. intros E.
              apply (flat_inj (mnboz i)) in E; lia.
        -- split; auto.
    + intros _ o1 (U & K & HC1). eapply wp_mono; [|apply (IH o1 (inc1 k f x C) Hk); auto].
      * cbv beta. intros _ o2 ev (-> & U2 & K2 & HC2). splits; auto.
        -- eapply upto_trans; eauto.
        -- eapply keep_trans; eauto.
      * intros p Hp. apply Hl. right. exact Hp.
Qed.

Lemma accumulate_spec (o : obj) t jac bm r z nu bj :
  repr o i -> grid_ok S o i ->
  mat_is (tcosm S t) (npts i) (mboz i + 1) (fun j m => wgt i j (TC (bth i js j) m)) ->
  mat_is (tsinm S t) (npts i) (mboz i + 1) (fun j m => wgt i j (TS (bth i js j) m)) ->
  mat_is (tcosn S t) (npts i) (nboz i + 1) (fun j n => TC (fofZ S (nfp i) * bze i js j)%sc n) ->
  mat_is (tsinn S t) (npts i) (nboz i + 1) (fun j n => TS (fofZ S (nfp i) * bze i js j)%sc n) ->
  vec_is jac (npts i) (fun l => p_jac i js (thg i l) (zeg i l)) ->
  vec_is bm (npts i) (fun l => p_b i js (thg i l) (zeg i l)) ->
  vec_is r (npts i) (fun l => p_r i js (thg i l) (zeg i l)) ->
  vec_is z (npts i) (fun l => p_z i js (thg i l) (zeg i l)) ->
  vec_is nu (npts i) (fun l => p_nu i js (thg i l) (zeg i l)) ->
  vec_is bj (npts i) (fun l => p_g i js (thg i l) (zeg i l)) ->
  cols o (fun _ _ => f0 S) ->
  wp P (accumulate S (asym i) b (nfp i) (mnboz i) (npts i) (ff0 i) t jac bm r z nu bj) o
    (fun _ o' ev => ev = [] /\ upto own o o' /\ keep o o' /\ cols o' (o_coef i js)).
Proof.
  intros R G M1 M2 M3 M4 Vj Vb Vr Vz Vn Vg HC. unfold accumulate.
  pose proof (mnboz_pos i Hok) as Hmn. pose proof (ok_nfp _ _ Hok) as Hnf.
  eapply wp_for with (Inv := fun n _ o' => upto own o o' /\ keep o o' /\
    cols o' (fun f k => if k <? n then o_coef i js f k else f0 S)).
  - lia.
  - split; [apply upto_refl|]. split; [red; auto|]. eapply cols_ext; [|exact HC]. intros f k Hf Hk. zb. reflexivity.
  - intros n _ o1 Hn (U & K & HC1).
    pose proof (upto_same _ _ _ own_not_shared U) as SS.
    pose proof (same_grid _ _ _ SS G) as G1.
    pose proof (mode_m_bounds i Hok n Hn) as Hmm. pose proof (mode_n_bounds i Hok n Hn) as Hnn.
    pose proof (kn_mode i Hok n Hn) as Hkn. pose proof (nboz_le i Hok) as Hnb.
    eapply wp_getn; [exact (g_xmb _ _ _ G1)|lia|].
    eapply wp_getn; [exact (g_xnb _ _ _ G1)|lia|].
    eapply wp_idiv; [lia|unfold kn in Hkn; unfold INT_MIN, INT_MAX in *; lia|].
    eapply wp_iabs; [fold (kn (nfp i) (xn_b i n)); lia|].
    fold (kn (nfp i) (xn_b i n)). cbv zeta.
    fold (ff i n). unfold ff. fold (ff i n).
    eapply wp_mono; [|eapply wp_for with (Inv := fun j _ o' => upto own o o' /\ keep o o' /\
      cols o' (fun f k => if k <? n then o_coef i js f k else
                          if k =? n then accum j (fun j acc => (acc + o_inc i js f n j)%sc) (f0 S)
                          else f0 S))
      (Q := fun _ o' ev => ev = [] /\ upto own o o' /\ keep o o' /\ cols o' (fun f k => if k <? n then o_coef i js f k else
                          if k =? n then accum (npts i) (fun j acc => (acc + o_inc i js f n j)%sc) (f0 S)
                          else f0 S))].
    + cbv beta. intros _ o2 ev (-> & U2 & K2 & HC2). splits; auto.
      eapply cols_ext; [|exact HC2]. intros f k Hf Hk.
      destruct (Z.eq_dec k n) as [->|]; zb; reflexivity.
    + lia.
    + split; [exact U|split; [exact K|]]. eapply cols_ext; [|exact HC1]. intros f k Hf Hk. zb; auto.
    + clear U K HC1 G1 SS o1. intros j _ o1 Hj (U & K & HC1).
      assert (Hxm : 0 <= xm_b i n < mboz i + 1) by (unfold xm_b; lia).
      assert (Hxn : 0 <= kn (nfp i) (xn_b i n) < nboz i + 1) by lia.
      eapply wp_mget; [exact M1|exact Hj|exact Hxm|].
      eapply wp_mget; [exact M3|exact Hj|exact Hxn|].
      eapply wp_mget; [exact M2|exact Hj|exact Hxm|].
      eapply wp_mget; [exact M4|exact Hj|exact Hxn|].
      eapply wp_vget; [exact Vj|exact Hj|].
      eapply wp_vget; [exact Vb|exact Hj|].
      eapply wp_vget; [exact Vr|exact Hj|].
      eapply wp_vget; [exact Vz|exact Hj|].
      eapply wp_vget; [exact Vn|exact Hj|].
      eapply wp_vget; [exact Vg|exact Hj|].
      cbv zeta.
      match goal with |- context [(?c * p_b i js (thg i j) (zeg i j))%sc] => change c with (o_cos i js n j) end.
      match goal with |- context [(?c * p_z i js (thg i j) (zeg i j))%sc] => change c with (o_sin i js n j) end.
      eapply wp_bind0.
      { eapply incs_spec; [exact Hn| |exact HC1]. intros p Hp.
        destruct (asym i); cbn in *; intuition (subst; cbn; auto 10). }
      intros _ o2 (U2 & K2 & HC2).
      destruct (asym i) eqn:Ea; cbn [negb].
      * eapply wp_mono; [|eapply incs_spec; [exact Hn| |exact HC2]].
        -- cbv beta. intros _ o3 ev (-> & U3 & K3 & HC3). splits; auto.
           ++ eapply upto_trans; [exact U|]. eapply upto_trans; eauto.
           ++ eapply keep_trans; [exact K|]. eapply keep_trans; eauto.
           ++ eapply cols_ext; [|exact HC3]. intros f k Hf Hk. rewrite accum_succ by lia.
              rewrite Ea in Hf. cbn in Hf.
              repeat (destruct Hf as [<-|Hf];
                [cbn [incC]; destruct (Z.eq_dec k n) as [->|];
                 [repeat (rewrite inc1_same || rewrite inc1_other by discriminate)|rewrite !inc1_row by assumption];
                 zb; reflexivity|]).
              contradiction.
        -- intros p Hp. rewrite Ea. cbn in *. intuition (subst; cbn; auto 10).
      * cbn [wp]. splits; auto.
        -- eapply upto_trans; eauto.
        -- eapply keep_trans; eauto.
        -- eapply cols_ext; [|exact HC2]. intros f k Hf Hk. rewrite accum_succ by lia.
           rewrite Ea in Hf. cbn in Hf.
           repeat (destruct Hf as [<-|Hf];
             [cbn [incC]; destruct (Z.eq_dec k n) as [->|];
                 [repeat (rewrite inc1_same || rewrite inc1_other by discriminate)|rewrite !inc1_row by assumption];
                 zb; reflexivity|]).
           contradiction.
    + intros _ o2 H2. auto.
  - intros _ o2 (U & K & H2). splits; auto. eapply cols_ext; [|exact H2].
    intros f k Hf Hk. zb. reflexivity.
Qed.

(** ** check_accuracy *)
Lemma nzeta_quot : Z.quot (nzeta i) 2 = nzeta i / 2.
Proof. pose proof (nzeta_pos i Hok). apply Z.quot_div_nonneg; lia. Qed.

Lemma chk_idx_range r : 0 <= r < 4 -> 0 <= nth (Z.to_nat r) (chk_idx i) 0 < npts i.
Proof.
  intros Hr. pose proof (nzeta_pos i Hok) as Hz. pose proof (nu2_eq i) as H2.
  pose proof (ok_mboz _ _ Hok) as Hm. pose proof (ntheta_half i) as Hh.
  assert (Hd : 0 <= nzeta i / 2 < nzeta i).
  { split; [apply Z.div_pos; lia|apply Z.div_lt; lia]. }
  assert (Hn : (2 * mboz i + 2) * nzeta i <= npts i).
  { unfold npts, nu3. destruct (asym i); [unfold ntheta; nia|nia]. }
  unfold chk_idx. rewrite Hh.
  assert (Hc : r = 0 \/ r = 1 \/ r = 2 \/ r = 3) by lia.
  generalize dependent (nzeta i / 2). intros d Hd.
  destruct Hc as [-> | [-> | [-> | ->]]];
    [change (Z.to_nat 0) with 0%nat|change (Z.to_nat 1) with 1%nat
    |change (Z.to_nat 2) with 2%nat|change (Z.to_nat 3) with 3%nat]; cbn [nth]; nia.
Qed.

Lemma check_indices_spec (o : obj) :
  wp P (check_indices S (ntheta i) (nzeta i)) o (fun l o' ev => ev = [] /\ o' = o /\ l = chk_idx i).
Proof.
  pose proof (nzeta_pos i Hok) as Hz. pose proof (ntheta_half i) as Hh.
  pose proof (ok_mboz _ _ Hok) as Hm. pose proof (ok_grid _ _ Hok) as Hg.
  pose proof (ntheta_le i Hok) as Hle. pose proof (nzeta_le i Hok) as Hlz.
  assert (Hd : 0 <= nzeta i / 2 < nzeta i).
  { split; [apply Z.div_pos; lia|apply Z.div_lt; lia]. }
  assert (Imin : INT_MIN = -2147483648) by reflexivity.
  unfold check_indices.
  eapply wp_idiv; [lia|rewrite (ntheta_quot i Hok), Hh; unfold ntheta in *; lia|].
  rewrite (ntheta_quot i Hok).
  assert (Hb1 : 0 <= ntheta i / 2 * nzeta i) by (rewrite Hh; nia).
  assert (Hb2 : ntheta i / 2 * nzeta i + nzeta i <= INT_MAX) by (rewrite Hh; unfold ntheta in *; nia).
  eapply wp_imul; [lia|].
  eapply wp_idiv; [lia|rewrite nzeta_quot; lia|]. rewrite nzeta_quot.
  eapply wp_iadd; [lia|].
  cbn [wp]. splits; reflexivity.
Qed.

Definition chk_step (r k : Z) (acc : F) : F :=
  let j := nth (Z.to_nat r) (chk_idx i) 0 in
  let y := (fofZ S (nfp i) * bze i js j)%sc in
  let q := kn (nfp i) (xn_b i k) in
  let c := pcos (TC (bth i js j) (xm_b i k)) (chk_TS i r (bth i js j) (xm_b i k)) (TC y q) (TS y q) (xn_b i k) in
  let s := psin (TC (bth i js j) (xm_b i k)) (chk_TS i r (bth i js j) (xm_b i k)) (TC y q) (TS y q) (xn_b i k) in
  let acc1 := (acc + c * o_coef i js A_bmnc_b k)%sc in
  if asym i then (acc1 + s * o_coef i js A_bmns_b k)%sc else acc1.

Lemma vec4 {T} (x0 x1 x2 x3 : T) g :
  g 0 = x0 -> g 1 = x1 -> g 2 = x2 -> g 3 = x3 ->
  vec_is (mkArr 4 1 [Some x0; Some x1; Some x2; Some x3]) 4 g.
Proof.
  intros <- <- <- <-. unfold vec_is. splits; try reflexivity. intros r Hr.
  assert (Hc : r = 0 \/ r = 1 \/ r = 2 \/ r = 3) by lia.
  destruct Hc as [-> | [-> | [-> | ->]]]; reflexivity.
Qed.

Lemma check_sum_spec (o : obj) t bb :
  grid_ok S o i -> cols o (o_coef i js) ->
  let j r := nth (Z.to_nat r) (chk_idx i) 0 in
  (exists g, mat_is (tcosm S t) (npts i) (mboz i + 1) g /\
     forall r m, 0 <= r < 4 -> 0 <= m <= mboz i -> g r m = TC (bth i js (j r)) m) ->
  (exists g, mat_is (tsinm S t) (npts i) (mboz i + 1) g /\
     forall r m, 0 <= r < 4 -> 0 <= m <= mboz i -> g r m = chk_TS i r (bth i js (j r)) m) ->
  (exists g, mat_is (tcosn S t) (npts i) (nboz i + 1) g /\
     forall r m, 0 <= r < 4 -> 0 <= m <= nboz i -> g r m = TC (fofZ S (nfp i) * bze i js (j r))%sc m) ->
  (exists g, mat_is (tsinn S t) (npts i) (nboz i + 1) g /\
     forall r m, 0 <= r < 4 -> 0 <= m <= nboz i -> g r m = TS (fofZ S (nfp i) * bze i js (j r))%sc m) ->
  vec_is bb 4 (fun _ => f0 S) ->
  wp P (check_sum S (asym i) b (nfp i) (mnboz i) t bb) o (fun r o' ev => ev = [] /\ o' = o /\
    vec_is r 4 (fun r => accum (mnboz i) (chk_step r) (f0 S))).
Proof.
  intros G HC j (g1 & M1 & Q1) (g2 & M2 & Q2) (g3 & M3 & Q3) (g4 & M4 & Q4) Hbb.
  pose proof (mnboz_pos i Hok) as Hmn. pose proof (ok_nfp _ _ Hok) as Hnf.
  unfold check_sum.
  eapply wp_for_pure with (Inv := fun n v => vec_is v 4 (fun r => accum n (chk_step r) (f0 S))).
  - lia.
  - eapply vec_ext; [|exact Hbb]. reflexivity.
  - intros n v Hn Hv.
    pose proof (mode_m_bounds i Hok n Hn) as Hmm. pose proof (mode_n_bounds i Hok n Hn) as Hnn.
    pose proof (kn_mode i Hok n Hn) as Hkn. pose proof (nboz_le i Hok) as Hnb.
    eapply wp_getn; [exact (g_xmb _ _ _ G)|lia|].
    eapply wp_getn; [exact (g_xnb _ _ _ G)|lia|].
    eapply wp_idiv; [lia|unfold kn in Hkn; unfold INT_MIN, INT_MAX in *; lia|].
    eapply wp_iabs; [fold (kn (nfp i) (xn_b i n)); lia|].
    fold (kn (nfp i) (xn_b i n)). cbv zeta.
    eapply wp_mono; [|eapply wp_for_pure with (Inv := fun l v =>
      vec_is v 4 (fun r => if r <? l then accum (n + 1) (chk_step r) (f0 S) else accum n (chk_step r) (f0 S)))].
    + cbv beta. intros v' o' ev (-> & -> & A). splits; auto. eapply vec_ext; [|exact A]. intros; zb; auto.
    + lia.
    + eapply vec_ext; [|exact Hv]. intros; zb; auto.
    + clear v Hv. intros l v Hl Hv.
      assert (Hxm : 0 <= xm_b i n <= mboz i) by (unfold xm_b; lia).
      assert (Hxn : 0 <= kn (nfp i) (xn_b i n) <= nboz i) by lia.
      eapply wp_mget; [exact M1|lia|lia|]. rewrite Q1 by lia.
      eapply wp_mget; [exact M3|lia|lia|]. rewrite Q3 by lia.
      eapply wp_mget; [exact M2|lia|lia|]. rewrite Q2 by lia.
      eapply wp_mget; [exact M4|lia|lia|]. rewrite Q4 by lia.
      assert (Hcell : forall f (k : F -> prog S (arr S)) Q, In f (outs (asym i)) ->
        wp P (k (o_coef i js f n)) o Q -> wp P (bind (getm f n b) k) o Q).
      { intros f k Q Hf W. destruct (HC f Hf) as ((Er & Es) & Ec). cbn. rewrite Er, Es, inside_true by auto. cbn.
        split; [apply HR; constructor; auto|]. eexists. split; [apply Ec; exact Hn|exact W]. }
      apply Hcell; [destruct (asym i); cbn; auto|].
      eapply wp_vinc; [exact Hv|lia|]. intros v1 Hv1.
      destruct (asym i) eqn:Ea; cbn [negb].
      * apply Hcell; [cbn; auto 10|].
        match goal with |- wp P ?p o ?Q => replace p with (bind p Ret) end.
        2:{ unfold vinc, vget, vset. destruct Hv1 as (_ & _ & _ & E). rewrite E by auto.
            reflexivity. }
        eapply wp_vinc; [exact Hv1|lia|]. intros v2 Hv2. cbn [wp]. splits; auto.
        eapply vec_ext; [|exact Hv2]. intros r Hr.
        destruct (Z.eq_dec r l) as [->|]; zb; auto.
        rewrite accum_succ by lia. generalize (accum n (chk_step l) (f0 S)). intros A. unfold chk_step. rewrite Ea. reflexivity.
      * cbn [wp]. splits; auto.
        eapply vec_ext; [|exact Hv1]. intros r Hr.
        destruct (Z.eq_dec r l) as [->|]; zb; auto.
        rewrite accum_succ by lia. generalize (accum n (chk_step l) (f0 S)). intros A. unfold chk_step. rewrite Ea. reflexivity.
Qed.

Lemma check_accuracy_spec (o : obj) bm th ze t :
  repr o i -> grid_ok S o i -> cols o (o_coef i js) ->
  vec_is bm (npts i) (fun l => p_b i js (thg i l) (zeg i l)) ->
  vec_is th (npts i) (bth i js) -> vec_is ze (npts i) (bze i js) ->
  mat_is (tcosm S t) (npts i) (mboz i + 1) (fun j m => wgt i j (TC (bth i js j) m)) ->
  mat_is (tsinm S t) (npts i) (mboz i + 1) (fun j m => wgt i j (TS (bth i js j) m)) ->
  mat_is (tcosn S t) (npts i) (nboz i + 1) (fun j n => TC (fofZ S (nfp i) * bze i js j)%sc n) ->
  mat_is (tsinn S t) (npts i) (nboz i + 1) (fun j n => TS (fofZ S (nfp i) * bze i js j)%sc n) ->
  wp P (check_accuracy S js b bm th ze t) o (fun _ o' ev => o' = o /\
    ev = [mkEv "accuracy" [b; js] (chk_vals i js)]).
Proof.
  intros R G HC Vb Vt Vz M1 M2 M3 M4. unfold check_accuracy.
  pose proof (ok_mboz _ _ Hok) as Hmb. pose proof (ok_nboz _ _ Hok) as Hnb.
  eapply wp_geti; [exact (g_ntheta _ _ _ G)|].
  eapply wp_geti; [exact (g_nzeta _ _ _ G)|].
  eapply wp_sub; [apply check_indices_spec|]. intros idx ->. cbv zeta.
  assert (Hat : forall v g, vec_is v (npts i) g ->
    wp P (at4 S (chk_idx i) v) o (fun r o' ev => ev = [] /\ o' = o /\
      vec_is r 4 (fun r => g (nth (Z.to_nat r) (chk_idx i) 0)))).
  { intros v g Hv. unfold at4.
    eapply wp_vget; [exact Hv|apply (chk_idx_range 0); lia|].
    eapply wp_vget; [exact Hv|apply (chk_idx_range 1); lia|].
    eapply wp_vget; [exact Hv|apply (chk_idx_range 2); lia|].
    eapply wp_vget; [exact Hv|apply (chk_idx_range 3); lia|].
    cbn [wp]. splits; auto. apply vec4; reflexivity. }
  eapply wp_sub; [apply (Hat _ _ Vb)|]. intros bv Hbv.
  eapply wp_sub; [apply (Hat _ _ Vt)|]. intros tv Htv.
  eapply wp_sub; [apply (Hat _ _ Vz)|]. intros zv Hzv.
  clear Hat.
  eapply wp_geti; [apply R|]. eapply wp_geti; [apply R|]. eapply wp_geti; [apply R|].
  eapply wp_sub.
  { eapply init_trig_spec with (R := npts i) (Cm := mboz i + 1) (Cn := nboz i + 1) (N := 4);
      [| | |exact Htv|exact Hzv|exact M1|exact M2|exact M3|exact M4]; lia. }
  intros t' [T1 T2 T3 T4].
  eapply wp_geti; [exact (g_mnboz _ _ _ G)|].
  eapply wp_getb; [apply R|].
  eapply wp_sub.
  { eapply check_sum_spec; [exact G|exact HC| | | | |].
    - eexists. split; [exact T1|]. intros r m Hr Hm'. cbv beta. zb. reflexivity.
    - eexists. split; [exact T2|]. intros r m Hr Hm'. cbv beta. unfold chk_TS.
      destruct (Z.eq_dec m 0) as [->|]; zb; reflexivity.
    - eexists. split; [exact T3|]. intros r m Hr Hm'. cbv beta. zb. reflexivity.
    - eexists. split; [exact T4|]. intros r m Hr Hm'. cbv beta.
      destruct (Z.eq_dec m 0) as [->|]; zb; reflexivity.
    - apply vec4; reflexivity. }
  intros bb Hbb.
  do 4 (eapply wp_vget; [exact Hbv|lia|]).
  do 4 (eapply wp_vget; [exact Hbb|lia|]).
  cbn [out wp]. split; reflexivity.
Qed.

(** ** surface_solve *)
Definition surf_events : list (event S) :=
  (if 1 <? verb i then [mkEv "Solving for js_b=" [b] []; mkEv ", js=" [js] []] else []) ++
  (if 0 <? verb i then [mkEv "accuracy" [b; js] (chk_vals i js)] else []).

(** p at every grid point *)
Definition at_ (p : F -> F -> F) (l : Z) : F := p (thg i l) (zeg i l).

Lemma surface_angles_spec (o : obj) :
  repr o i -> grid_ok S o i ->
  cols o (fun _ _ => f0 S) ->
  znth (adata (oA o A_Boozer_I)) b = Some (Some (f0 S)) ->
  znth (adata (oA o A_Boozer_G)) b = Some (Some (f0 S)) ->
  wp P (surface_angles S (asym i) js b (npts i)) o (fun r o1 ev =>
    ev = [] /\ upto own o o1 /\ cols o1 (fun _ _ => f0 S) /\
    znth (adata (oA o1 A_Boozer_I)) b = Some (Some (bI i js)) /\
    znth (adata (oA o1 A_Boozer_G)) b = Some (Some (bG i js)) /\
    vec_is (vr S (fst (fst r))) (npts i) (at_ (p_r i js)) /\
    vec_is (vz S (fst (fst r))) (npts i) (at_ (p_z i js)) /\
    vec_is (vlam S (fst (fst r))) (npts i) (at_ (p_lam i js)) /\
    vec_is (vbmod S (snd (fst r))) (npts i) (at_ (p_b i js)) /\
    vec_is (hnu S (snd r)) (npts i) (at_ (p_nu i js)) /\
    vec_is (hth S (snd r)) (npts i) (at_ (p_th i js)) /\
    vec_is (hze S (snd r)) (npts i) (at_ (p_ze i js)) /\
    vec_is (hjac S (snd r)) (npts i) (at_ (p_jac i js))).
Proof.
  intros R G HC HI HG. unfold surface_angles.
  pose proof (ok_mnmaxq _ _ Hok) as Hmq. pose proof (npts_bounds i Hok) as Hnp.
  eapply wp_geti; [apply R|].
  eapply wp_zerosv; [lia|]. intros w0 Hw0.
  eapply wp_sub with (R := fun a : arr S => asym i = true -> vec_is a (mnmaxq i) (fun _ => f0 S)).
  { destruct (asym i).
    - replace (zeros (f0 S) (mnmaxq i) 1) with (bind (S:=S) (zeros (f0 S) (mnmaxq i) 1) Ret)
        by (unfold zeros; destruct (_ || _); reflexivity).
      eapply wp_zerosv; [lia|]. intros a Ha. cbn [wp]. auto.
    - cbn [wp]. splits; auto. intros; discriminate. }
  intros wc0 Hwc0.
  eapply wp_zerosv; [lia|]. intros zero Hz.
  eapply wp_bind0; [exact (transp_spec o w0 wc0 R Hw0 Hwc0 HI HG)|].
  intros (ws, wc) o1 (U1 & F1 & Hws & Hwc & CI & CG). cbn [fst snd] in *.
  pose proof (upto_same _ _ _ own_not_shared U1) as SS1.
  pose proof (same_repr _ _ _ SS1 R) as R1. pose proof (same_grid _ _ _ SS1 G) as G1.
  assert (HC1 : cols o1 (fun _ _ => f0 S)).
  { intros f Hf. rewrite F1; [apply HC; exact Hf| |];
      intros ->; apply outs_not_shared in Hf as Hf'; revert Hf; destruct (asym i); cbn; intuition discriminate. }
  eapply wp_geti; [apply R1|]. eapply wp_geti; [apply R1|].
  eapply wp_sub; [apply (vcoords_rz_spec o1 zero R1 G1 Hz)|].
  intros a (A1 & A2 & A3 & A4 & A5).
  eapply wp_sub; [apply (vcoords_w_spec o1 zero ws wc R1 G1 Hz Hws Hwc)|].
  intros w (B1 & B2 & B3 & B4).
  eapply wp_sub; [apply (harfun_spec o1 a w zero R1 G1 Hz A3 A4 A5 B1 B2 B3 CI CG)|].
  intros h (C1 & C2 & C3 & C4).
  cbn [wp fst snd]. splits; auto.
Qed.

Theorem surface_solve_spec (o : obj) :
  repr o i -> grid_ok S o i ->
  cols o (fun _ _ => f0 S) ->
  znth (adata (oA o A_Boozer_I)) b = Some (Some (f0 S)) ->
  znth (adata (oA o A_Boozer_G)) b = Some (Some (f0 S)) ->
  wp P (surface_solve S b) o (fun _ o' ev =>
    upto own o o' /\ cols o' (o_coef i js) /\
    znth (adata (oA o' A_Boozer_I)) b = Some (Some (bI i js)) /\
    znth (adata (oA o' A_Boozer_G)) b = Some (Some (bG i js)) /\
    ev = surf_events).
Proof.
  intros R G HC HI HG. unfold surface_solve.
  pose proof (ok_mboz _ _ Hok) as Hmb. pose proof (ok_nboz _ _ Hok) as Hnb.
  pose proof (ntheta_le i Hok) as Hle. pose proof (nboz_le i Hok) as Hlz.
  pose proof (ok_mnmaxq _ _ Hok) as Hmq. pose proof (ok_grid _ _ Hok) as Hgr.
  pose proof (nu2_eq i) as Hnu2. pose proof (nzeta_pos i Hok) as Hnz.
  assert (Imin : INT_MIN = -2147483648) by reflexivity.
  assert (Imax : INT_MAX = 2147483647) by reflexivity.
  eapply wp_getn; [exact (r_surf _ _ _ R)|exact Hb|]. fold js.
  eapply wp_geti; [apply R|].
  apply wp_if_out2.
  eapply wp_geti; [exact (g_npts _ _ _ G)|].
  eapply wp_geti; [apply R|]. eapply wp_geti; [apply R|].
  eapply wp_iadd; [unfold ntheta in *; lia|]. eapply wp_iadd; [lia|].
  eapply wp_zerosm; [lia|lia|]. intros cm0 Hcm0.
  eapply wp_zerosm; [lia|lia|]. intros cn0 Hcn0.
  eapply wp_getb; [apply R|].
  eapply wp_bind0; [exact (surface_angles_spec o R G HC HI HG)|].
  intros ((a & w) & h) o1 (U1 & HC1 & CI & CG & A1 & A2 & _ & B4 & C1 & C2 & C3 & C4). cbn [fst snd] in *.
  pose proof (upto_same _ _ _ own_not_shared U1) as SS1.
  pose proof (same_repr _ _ _ SS1 R) as R1. pose proof (same_grid _ _ _ SS1 G) as G1.
  eapply wp_geti; [apply R1|].
  eapply wp_sub.
  { eapply init_trig_spec with (R := npts i) (Cm := mboz i + 1) (Cn := nboz i + 1) (N := npts i);
      [| | |exact C2|exact C3|exact Hcm0|exact Hcm0|exact Hcn0|exact Hcn0]; lia. }
  intros t [T1 T2 T3 T4].
  eapply wp_geti; [exact (g_nzeta _ _ _ G1)|].
  eapply wp_geti; [exact (g_nu2 _ _ _ G1)|].
  eapply wp_sub.
  { eapply half_weights_spec with (gc := fun j m => TC (bth i js j) m) (gs := fun j m => TS (bth i js j) m).
    - eapply mat_ext; [|exact T1]. intros j m Hj Hm'. zb. reflexivity.
    - eapply mat_ext; [|exact T2]. intros j m Hj Hm'. destruct (Z.eq_dec m 0) as [->|]; zb; reflexivity. }
  intros t2 (E1 & E2 & T1' & T2').
  assert (T3' : mat_is (tcosn S t2) (npts i) (nboz i + 1) (fun j n => TC (fofZ S (nfp i) * bze i js j)%sc n)).
  { rewrite E1. eapply mat_ext; [|exact T3]. intros j m Hj Hm'. zb. reflexivity. }
  assert (T4' : mat_is (tsinn S t2) (npts i) (nboz i + 1) (fun j n => TS (fofZ S (nfp i) * bze i js j)%sc n)).
  { rewrite E2. eapply mat_ext; [|exact T4]. intros j m Hj Hm'. destruct (Z.eq_dec m 0) as [->|]; zb; reflexivity. }
  eapply wp_getv; [exact (r_iota _ _ _ R1)|exact HJ|apply HP; reflexivity|].
  eapply wp_cell; [exact CG|apply HR; constructor|].
  eapply wp_cell; [exact CI|apply HR; constructor|].
  eapply wp_zerosv; [pose proof (npts_bounds i Hok); lia|]. intros zero Hz.
  eapply wp_sub; [eapply vexpr_spec with (g := fun l => p_g i js (thg i l) (zeg i l)); [lia|exact Hz|]|].
  { intros j Hj. eapply wp_vget; [exact B4|exact Hj|]. cbn [wp]. splits; auto. }
  intros bj Hbj.
  eapply wp_geti; [exact (g_ntheta _ _ _ G1)|].
  eapply wp_sub with (R := fun d => (flit S (2 # 1) / fofZ S d)%sc = ff0 i).
  { unfold ff0. destruct (asym i) eqn:Ea.
    - unfold imul, int_. rewrite in_int_true by (pose proof (ntheta_ge i Hok); nia). cbn [wp]. auto.
    - eapply wp_isub; [unfold ntheta in *; lia|]. unfold imul, int_.
      rewrite in_int_true by (unfold ntheta in *; nia). cbn [wp]. auto. }
  intros d Hd. cbv zeta. rewrite Hd.
  eapply wp_geti; [exact (g_mnboz _ _ _ G1)|].
  eapply wp_bind0.
  { apply (accumulate_spec o1 t2 (hjac S h) (vbmod S w) (vr S a) (vz S a) (hnu S h) bj); auto. }
  intros _ o2 (U2 & K2 & HC2).
  pose proof (upto_same _ _ _ own_not_shared U2) as SS2.
  pose proof (same_repr _ _ _ SS2 R1) as R2. pose proof (same_grid _ _ _ SS2 G1) as G2.
  assert (KI : oA o2 A_Boozer_I = oA o1 A_Boozer_I).
  { apply K2. destruct (asym i); cbn; intuition discriminate. }
  assert (KG : oA o2 A_Boozer_G = oA o1 A_Boozer_G).
  { apply K2. destruct (asym i); cbn; intuition discriminate. }
  unfold surf_events. destruct (0 <? verb i).
  - eapply wp_mono; [|eapply check_accuracy_spec; eauto].
    cbv beta. intros _ o3 ev (-> & ->). rewrite KI, KG. splits; auto. eapply upto_trans; eauto.
  - cbn [wp]. rewrite KI, KG. splits; auto. eapply upto_trans; eauto.
Qed.

End Surface.
End SurfProof.

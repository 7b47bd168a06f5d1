(** wireplot: the surface, the two families of curves, file names; modeplot in real arithmetic. *)
From Coq Require Import ZArith QArith List String Bool Lia Reals Lra Psatz Permutation Sorted.
From Verif Require Import Scalar Prog Model Wp Func Step TrigProof InitProof SurfProof RunProof Par FuncExt Spec RunThms
  RSum RSpec RPoint RQuad RThms RThms2 RThms3 Vmec VmecSpec Nc NcModel NcSpec NcVoc NcThms NcThms2 NcThms3 NcThms4
  Plots PlotSpec PlotProof PlotWire PlotThms PlotReal PlotReal2.
Import ListNotations.
Local Open Scope Z_scope.

(** ** A file name, and the curves of the original coordinates *)
Section FileOrig.
Context {S : Scalar}.
Notation obj := (obj S).
Lemma ub_bind {A B} (p : prog S A) (k : A -> prog S B) o a why : yields p o a -> run (k a) o = RUB why -> run (bind p k) o = RUB why.
Proof. unfold yields. intros H1 H2. rewrite bind_run, H1, H2. reflexivity. Qed.
Lemma ub_first {A B} (p : prog S A) (k : A -> prog S B) o why : run p o = RUB why -> run (bind p k) o = RUB why.
Proof. intros H1. rewrite bind_run, H1. reflexivity. Qed.
Lemma wireplot_uninit (o : obj) a nf n c ms ns sb V g js nt np rf sf :
  shows o a nf n c ms ns sb V -> vec_is (oN o N_compute_surfs) c g -> oI o I_mnmax = None ->
  0 <= nt -> 0 <= np -> 0 <= rf ->
  - c <= (match js with Some j => j | None => c - 1 end) < c ->
  exists why, run (wireplot S js nt np rf sf true) o = RUB why.
Proof.
  intros H Hg Hm Ht Hp Hr Hj. destruct (sh_pos _ _ _ _ _ _ _ _ _ H) as (P1 & P2 & P3). unfold wireplot. eexists.
  eapply ub_bind; [apply y_linspace; nia|]. eapply ub_bind; [apply y_linspace; nia|].
  eapply ub_bind with (a := match js with Some j => j | None => c - 1 end).
  { destruct js; [apply y_ret|]. eapply y_bind; [apply y_geti, (sh_c _ _ _ _ _ _ _ _ _ H)|apply y_ret]. }
  set (j0 := match js with Some j => j | None => c - 1 end) in *.
  eapply ub_bind; [apply y_geti, (sh_n _ _ _ _ _ _ _ _ _ H)|]. cbv zeta.
  set (ts := points (two_pi S) (nt * rf + 1)). set (ps := points (two_pi S) (np * rf + 1)).
  set (cell := wsum a ms ns (fun f k => V f k (wrap c j0))).
  assert (L1 : forall f, In f (outs a) -> forall k, 0 <= k < n -> yields (np2 S f k j0) o (V f k (wrap c j0))).
  { intros f Hf k Hk. eapply y_np2; [apply (sh_V _ _ _ _ _ _ _ _ _ H); auto|auto|auto]. }
  eapply ub_bind with (a := grid ts ps (cell n)).
  { rewrite mesh_grid. apply (y_for _ (fun k => grid ts ps (cell k))); [lia|reflexivity|].
    intros k Hk.
    eapply y_bind; [eapply y_npn; [apply (sh_xm _ _ _ _ _ _ _ _ _ H)|lia]|].
    eapply y_bind; [eapply y_npn; [apply (sh_xn _ _ _ _ _ _ _ _ _ H)|lia]|].
    eapply y_bind; [apply L1; [destruct a; cbn; tauto|lia]|].
    eapply y_bind; [apply L1; [destruct a; cbn; tauto|lia]|].
    eapply y_bind; [apply L1; [destruct a; cbn; tauto|lia]|].
    eapply y_bind; [apply y_getb, (sh_asym _ _ _ _ _ _ _ _ _ H)|].
    destruct a.
    - eapply y_bind; [apply L1; [cbn; tauto|lia]|].
      eapply y_bind; [apply L1; [cbn; tauto|lia]|].
      eapply y_bind; [apply L1; [cbn; tauto|lia]|].
      rewrite !upd_grid. erewrite grid_ext; [apply y_ret|]. intros t p. unfold cell, wsum. rewrite accum_succ by lia. reflexivity.
    - rewrite !upd_grid. erewrite grid_ext; [apply y_ret|]. intros t p. unfold cell, wsum. rewrite accum_succ by lia. reflexivity. }
  apply ub_first.
  eapply ub_bind with (a := g (wrap c j0)).
  { unfold npn. eapply y_bind; [eapply y_sizen; exact Hg|].
    eapply y_bind; [apply y_index; exact Hj|]. eapply y_getn; [exact Hg|]. now apply wrap_ok. }
  apply ub_first. cbn. rewrite Hm. reflexivity.
Qed.

Lemma agree_shows (o o' : obj) a nf n c ms ns sb V : agree (plot_keys a) a o o' ->
  shows o a nf n c ms ns sb V -> shows o' a nf n c ms ns sb V.
Proof.
  intros G [H1 H2 H3 H4 H5 H6 H7 H8 H9 H10 H11].
  assert (KIn : forall f, In f [I_nfp; I_mnboz; I_ns_b] -> oI o f = oI o' f).
  { intros f Hf. apply (ag_I _ _ _ _ G). unfold plot_keys. rewrite !in_app_iff. left. now apply in_map. }
  assert (KNn : forall f, In f [N_xm_b; N_xn_b] -> oN o f = oN o' f).
  { intros f Hf. apply (ag_N _ _ _ _ G). unfold plot_keys. rewrite !in_app_iff. right. left. now apply in_map. }
  assert (KAn : forall f, f = A_s_b \/ In f (outs a) -> oA o f = oA o' f).
  { intros f Hf. apply (ag_A _ _ _ _ G). unfold plot_keys. rewrite !in_app_iff. right. right.
    destruct Hf as [->|Hf]; [left; now left|right; now apply in_map]. }
  constructor; auto.
  - apply (ag_B _ _ _ _ G).
  - now rewrite <- KIn by (cbn; tauto).
  - now rewrite <- KIn by (cbn; tauto).
  - now rewrite <- KIn by (cbn; tauto).
  - now rewrite <- KNn by (cbn; tauto).
  - now rewrite <- KNn by (cbn; tauto).
  - now rewrite <- KAn by (cbn; tauto).
  - intros f Hf. rewrite <- KAn by (cbn; tauto). auto.
Qed.

(** The default arguments: orig is True.  The object is drawn; the file is not, since mnmax has no value. *)
Theorem wireplot_file_orig version x (w : world S) i : (forall y : F S, fneg S (fneg S y) = y) ->
  writable version (wO w) i -> open_ok w -> lucky S w -> vmec_grid (wO w) i ->
  exists w1, write_boozmn S version x w = IOk tt w1 /\
  forall js nt np rf sf, 0 <= nt -> 0 <= np -> 0 <= rf ->
    - nsurf i <= (match js with Some j => j | None => nsurf i - 1 end) < nsurf i ->
    (exists v, run (wireplot S js nt np rf sf true) (wO w) = ROk v (wO w) []) /\
    (exists why, on_file S x (wireplot S js nt np rf sf true) w1 = IUB why).
Proof.
  intros H1 H2 H3 H4 G. destruct (round_trip_full S version x w i (obj_new S) H1 H2 H3 H4 (fresh_usable S)) as (w1 & w2 & d & E1 & E2 & L & _ & T & _).
  exists w1. split; [exact E1|]. intros js nt np rf sf Ht Hp Hr Hj.
  pose proof (wb_run _ _ _ H2) as A. pose proof (shows_after_run _ _ A) as Sh.
  destruct (after_run_holds S _ i A) as (O & R & _ & _). split.
  - eexists. eapply (wireplot_yields (S := S)); eauto.
  - pose proof (restored_agree _ _ _ A T G) as Ag.
    destruct (wireplot_uninit (wO w2) _ _ _ _ _ _ _ _ (surf i) js nt np rf sf (agree_shows _ _ _ _ _ _ _ _ _ _ Ag Sh)) as (why & Ew); auto.
    + assert (X : oN (wO w2) N_compute_surfs = oN (wO w) N_compute_surfs) by (apply (rs_N _ _ _ T); cbn; tauto).
      rewrite X. apply R.
    + rewrite (ld_Is _ _ _ _ L) by (cbn; intuition discriminate). reflexivity.
    + exists why. unfold on_file, ibind, setobj. rewrite E2. unfold lift. now rewrite Ew.
Qed.
End FileOrig.

Local Open Scope R_scope.
(** ** The surface *)
Lemma series_t_R n ms ns V t z : wRt_sum ms ns V n t z = series_t n ms ns (V A_rmnc_b) (onA false (V A_rmns_b)) t z.
Proof. unfold wRt_sum, series_t. apply rsum_ext. intros k _. unfold onA. rewrite opp_IZR. lra. Qed.
Lemma series_t_Z n ms ns V t z : wZt_sum ms ns V n t z = series_t n ms ns (onA false (V A_zmnc_b)) (V A_zmns_b) t z.
Proof. unfold wZt_sum, series_t. apply rsum_ext. intros k _. unfold onA. lra. Qed.
Lemma shrink (r z rt zt phi : R) : rt <> 0 \/ zt <> 0 -> exists r' z',
  cart RS (r - Q2R (2 # 1000) * (zt / sqrt (rt * rt + zt * zt))) (z + Q2R (2 # 1000) * (rt / sqrt (rt * rt + zt * zt))) phi = cyl r' phi z' /\
  left_of r z rt zt r' z'.
Proof.
  intros H. eexists. eexists. split; [reflexivity|]. set (d := sqrt (rt * rt + zt * zt)).
  assert (P : 0 < rt * rt + zt * zt).
  { destruct H; [assert (0 < rt * rt) by nra; nra|assert (0 < zt * zt) by nra; nra]. }
  assert (D : 0 < d) by (apply sqrt_lt_R0; exact P).
  assert (DD : d * d = rt * rt + zt * zt) by (apply sqrt_sqrt; lra).
  assert (E : Q2R (2 # 1000) = 1 / 500) by (unfold Q2R; cbn; lra). rewrite E.
  unfold left_of, Rsqr. splits.
  - field. lra.
  - replace (r - 1 / 500 * (zt / d) - r) with (- (1 / 500) * (zt / d)) by lra.
    replace (z + 1 / 500 * (rt / d) - z) with (1 / 500 * (rt / d)) by lra.
    replace (- (1 / 500) * (zt / d) * (- (1 / 500) * (zt / d)) + 1 / 500 * (rt / d) * (1 / 500 * (rt / d)))
      with (1 / 500 * (1 / 500) * ((rt * rt + zt * zt) / (d * d))) by (field; lra).
    rewrite <- DD. field. lra.
  - replace (z + 1 / 500 * (rt / d) - z) with (1 / 500 * (rt / d)) by lra.
    replace (r - 1 / 500 * (zt / d) - r) with (- (1 / 500) * (zt / d)) by lra.
    replace (1 / 500 * (rt / d) * rt - - (1 / 500) * (zt / d) * zt) with (1 / 500 * ((rt * rt + zt * zt) / d)) by (field; lra).
    apply Rmult_lt_0_compat; [lra|]. apply Rdiv_lt_0_compat; lra.
Qed.

Section WireThms.
Variables (o : obj RS) (a : bool) (nf n c : Z) (ms ns : Z -> Z) (sb : Z -> R) (V : afield -> Z -> Z -> R).
Hypothesis H : @shows RS o a nf n c ms ns sb V.
Variables (js : option Z) (nt np rf : Z).
Hypothesis Hj : (- c <= match js with Some j => j | None => c - 1 end < c)%Z.
Hypothesis Ht : (0 <= nt)%Z.
Hypothesis Hp : (0 <= np)%Z.
Let Vj := fun f k => V f k (surf_index c js).

Theorem wire_surface : a = false -> (0 <= rf)%Z -> exists w Q,
  run (wireplot RS js nt np rf true false) o = ROk w o [] /\
  wi_surface RS w = Some (map (fun p => map (fun q => Q (lin (2 * PI) (nt * rf + 1) p) (lin (2 * PI) (np * rf + 1) q)) (upto (np * rf + 1))) (upto (nt * rf + 1))) /\
  forall t z rt zt, derivable_pt_lim (fun x => sR a n ms ns Vj x z) t rt -> derivable_pt_lim (fun x => sZ a n ms ns Vj x z) t zt ->
    rt <> 0 \/ zt <> 0 ->
    exists r' z', Q t z = cyl r' (z - sNu a n ms ns Vj t z) z' /\ left_of (sR a n ms ns Vj t z) (sZ a n ms ns Vj t z) rt zt r' z'.
Proof.
  intros Ea Hr.
  destruct (wire_all o a nf n c ms ns sb V H js nt np rf true Hj Ht Hp (ex_inp RS false) false Hr ltac:(discriminate)) as (w & E & _ & _ & _ & Es).
  exists w. eexists. split; [exact E|]. split; [exact Es|].
  intros t z rt zt D1 D2 Hne. unfold shrunk, wshrunk. cbn [wR wZ wRt wZt wNu].
  fold Vj. rewrite series_t_R, series_t_Z.
  unfold sR, sZ in D1, D2. rewrite Ea in D1, D2.
  rewrite <- (uniqueness_limite _ _ _ _ D1 (series_dt _ _ _ _ _ t z)).
  rewrite <- (uniqueness_limite _ _ _ _ D2 (series_dt _ _ _ _ _ t z)).
  exact (shrink _ _ rt zt _ Hne).
Qed.

(** refine = 1 *)
Theorem wire_refine1 i orig sf : rf = 1%Z -> (orig = true -> after_run o i /\ nsurf i = c) -> exists w,
  run (wireplot RS js nt np rf sf orig) o = ROk w o [] /\
  wi_boozer_theta RS w = [] /\ wi_boozer_zeta RS w = [] /\ wi_orig_theta RS w = [] /\ wi_orig_zeta RS w = [].
Proof.
  intros Er Ho.
  destruct (wire_all o a nf n c ms ns sb V H js nt np rf sf Hj Ht Hp i orig ltac:(lia)) as (w & E & _ & _ & E1 & _).
  - intros Eo. destruct (Ho Eo) as (A & B). destruct (after_run_holds RS o i A) as (O & R & _). auto.
  - exists w. auto.
Qed.

(** The curves *)
Theorem wire_curves i orig sf : (2 <= rf)%Z -> (orig = true -> after_run o i /\ nsurf i = c) -> exists w,
  run (wireplot RS js nt np rf sf orig) o = ROk w o [] /\
  wi_boozer_theta RS w = curves1 (boozer_point a n ms ns Vj) nt np rf /\
  wi_boozer_zeta RS w = curves2 (boozer_point a n ms ns Vj) nt np rf /\
  wi_orig_theta RS w = (if orig then curves1 (orig_point i (surf i (surf_index c js))) nt np rf else []) /\
  wi_orig_zeta RS w = (if orig then curves2 (orig_point i (surf i (surf_index c js))) nt np rf else []).
Proof.
  intros Hr Ho.
  destruct (wire_all o a nf n c ms ns sb V H js nt np rf sf Hj Ht Hp i orig ltac:(lia)) as (w & E & E1 & E2 & _ & _).
  - intros Eo. destruct (Ho Eo) as (A & B). destruct (after_run_holds RS o i A) as (O & R & _). auto.
  - exists w. destruct (E1 Hr), (E2 Hr). auto.
Qed.
End WireThms.

(** Where the series reproduce R, Z and nu, the point with Boozer angles (theta_B, zeta_B) is the point with
    the original angles: phi = zeta_B - nu. *)
Theorem same_point i js (I G : R) a n ms ns V t z :
  sR a n ms ns V (mTh i js I G t z) (mZe i js I G t z) = mR i js t z ->
  sZ a n ms ns V (mTh i js I G t z) (mZe i js I G t z) = mZ i js t z ->
  sNu a n ms ns V (mTh i js I G t z) (mZe i js I G t z) = mNu i js I G t z ->
  boozer_point a n ms ns V (mTh i js I G t z) (mZe i js I G t z) = orig_point i js t z.
Proof.
  intros E1 E2 E3. unfold boozer_point, orig_point. rewrite E1, E2, E3. f_equal. unfold mZe. lra.
Qed.
Lemma curves1_ext P Q nt np rf : (forall t z, P t z = Q t z) -> curves1 P nt np rf = curves1 Q nt np rf.
Proof. intros E. unfold curves1. apply map_ext. intros p. apply map_ext. intros q. apply E. Qed.
Lemma curves2_ext P Q nt np rf : (forall t z, P t z = Q t z) -> curves2 P nt np rf = curves2 Q nt np rf.
Proof. intros E. unfold curves2. apply map_ext. intros p. apply map_ext. intros q. apply E. Qed.

(** Input in Boozer coordinates: the red curves are the black curves. *)
Theorem wire_identity (o : obj RS) i : valid o i ->
  resolved i (mnmax i) (xm i) (xn i) -> resolved i (mnmaxq i) (xmq i) (xnq i) ->
  exists o' ev, run_ok o o' ev /\
  forall js nt np rf sf,
    (- nsurf i <= match js with Some j => j | None => nsurf i - 1 end < nsurf i)%Z -> (0 <= nt)%Z -> (0 <= np)%Z -> (2 <= rf)%Z ->
    let s := surf i (surf_index (nsurf i) js) in
    in_boozer i s -> bG i s + iota i s * bI i s <> 0 ->
    exists w, run (wireplot RS js nt np rf sf true) o' = ROk w o' [] /\
    wi_boozer_theta RS w = wi_orig_theta RS w /\ wi_boozer_zeta RS w = wi_orig_zeta RS w /\
    wi_orig_theta RS w = curves1 (orig_point i s) nt np rf /\ wi_orig_zeta RS w = curves2 (orig_point i s) nt np rf.
Proof.
  intros Hv R1 R2. destruct (identity_functions o i Hv R1 R2) as (o' & ev & V & E & A & Sh & Id).
  exists o', ev. split; [exact E|]. intros js nt np rf sf Hj Ht Hp Hr s HB Hne.
  destruct (wire_curves o' _ _ _ _ _ _ _ _ Sh js nt np rf Hj Ht Hp i true sf Hr ltac:(auto)) as (w & Ew & C1 & C2 & C3 & C4).
  exists w. split; [exact Ew|].
  assert (Hb : (0 <= surf_index (nsurf i) js < nsurf i)%Z) by (apply wrap_ok; exact Hj).
  assert (X : forall t z, boozer_point (asym i) (mnboz i) (xm_b i) (xn_b i) (fun f k => V f k (surf_index (nsurf i) js)) t z = orig_point i s t z).
  { intros t z. destruct (Id _ Hb HB Hne t z) as (_ & X1 & X2 & X3). unfold boozer_point, orig_point. rewrite X1, X2, X3. f_equal. lra. }
  fold s in C3, C4. rewrite C1, C2, C3, C4, (curves1_ext _ _ _ _ _ X), (curves2_ext _ _ _ _ _ X). auto.
Qed.

(** ** modeplot *)
Lemma rank_le (x y : R) : flt RS (fneg RS (fabs RS x)) (fneg RS (fabs RS y)) = false <-> Rabs x <= Rabs y.
Proof.
  cbn. destruct (Rlt_dec (- Rabs x) (- Rabs y)) as [L|L]; split; intros X; try reflexivity; try discriminate; lra.
Qed.
(** One of the functions np.argsort may be: insertion sort *)
Section Sort.
Variable key : Z -> R.
Fixpoint insert (x : Z) (l : list Z) : list Z :=
  match l with
  | [] => [x]
  | y :: l' => if Rlt_dec (key y) (key x) then y :: insert x l' else x :: l
  end.
Lemma insert_perm x l : Permutation (insert x l) (x :: l).
Proof.
  induction l as [|y l IH]; cbn; [apply Permutation_refl|]. destruct (Rlt_dec _ _); [|apply Permutation_refl].
  eapply Permutation_trans; [apply perm_skip, IH|]. apply perm_swap.
Qed.
Lemma insert_sorted x l : StronglySorted (fun a b => key a <= key b) l -> StronglySorted (fun a b => key a <= key b) (insert x l).
Proof.
  induction l as [|y l IH]; intros Hs; cbn; [repeat constructor|]. inversion Hs; subst. destruct (Rlt_dec _ _) as [L|L].
  - constructor; [auto|]. rewrite Forall_forall in *. intros z Hz. apply (Permutation_in _ (insert_perm x l)) in Hz.
    destruct Hz as [<-|Hz]; [lra|auto].
  - constructor; [auto|]. rewrite Forall_forall in *. intros z [<-|Hz]; [lra|]. specialize (H2 z Hz). lra.
Qed.
End Sort.
Definition insertion (l : list R) : list Z :=
  fold_right (insert (fun x => match znth l x with Some v => v | None => 0 end)) [] (upto (Z.of_nat (List.length l))).
Lemma insertion_sorts : sorts (S := RS) insertion.
Proof.
  intros l. change (F RS) with R in *. unfold insertion. set (key := fun x => match znth l x with Some v => v | None => 0 end).
  assert (P : forall u, Permutation (fold_right (insert key) [] u) u).
  { induction u as [|x u IH]; cbn; [constructor|]. eapply Permutation_trans; [apply insert_perm|]. now apply perm_skip. }
  assert (Q : forall u, StronglySorted (fun a b => key a <= key b) (fold_right (insert key) [] u)).
  { induction u as [|x u IH]; cbn; [constructor|]. now apply insert_sorted. }
  split; [apply P|]. intros a b x y u v Hab Ex Ey Eu Ev.
  specialize (Q (upto (Z.of_nat (List.length l)))). revert a b Hab Ex Ey. induction Q as [|z w Hw IH Hf]; intros a b Hab Ex Ey.
  - destruct a; discriminate.
  - destruct b as [|b]; [lia|]. destruct a as [|a]; cbn in Ex, Ey.
    + injection Ex as ->. rewrite Forall_forall in Hf. pose proof (Hf y (nth_error_In _ _ Ey)) as L. unfold key in L.
      change (F RS) with R in *. rewrite Eu, Ev in L. cbn. destruct (Rlt_dec v u); [lra|reflexivity].
    + apply (IH a b); auto. lia.
Qed.

Theorem modeplot_real (o : obj RS) a nf n c ms ns sb V argsort nm ym sq lg B0 rm :
  shows o a nf n c ms ns sb V -> (1 <= c)%Z -> sorts (S := RS) argsort -> (0 <= nm <= count B0 n)%Z ->
  let size k := Rabs (ampl (S := RS) ms ns V rm k (c - 1)) in
  exists l,
  run (modeplot RS argsort nm ym sq lg B0 rm) o =
    ROk (mkPlot RS (negb lg) [] (map (fun k => mode_curve c ms ns sb V rm sq lg Cycle (Mode (ms k) (ns k)) k) l)
           (if lg then Some (lower ym n c (V A_bmnc_b)) else None)) o [] /\
  Z.of_nat (List.length l) = nm /\ NoDup l /\ (forall k, In k l -> eligible B0 n k) /\
  (forall k k', In k l -> eligible B0 n k' -> ~ In k' l -> size k' <= size k) /\
  (forall p q k k', (p < q)%nat -> nth_error l p = Some k -> nth_error l q = Some k' -> size k' <= size k).
Proof.
  intros H Hc Hs Hn size. destruct (modeplot_largest o a nf n c ms ns sb V H Hc argsort Hs nm ym sq lg B0 rm Hn) as (l & E & E1 & E2 & E3 & E4 & E5).
  exists l. splits; auto.
  - intros k k' H1 H2 H3. apply rank_le. now apply E4.
  - intros p q k k' H1 H2 H3. apply rank_le. now apply (E5 p q).
Qed.

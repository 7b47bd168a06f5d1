(** Theorems about plots.py in real arithmetic. *)
From Coq Require Import ZArith QArith List String Bool Lia Lra Reals Permutation.
From Verif Require Import Scalar Prog Model Wp Func Step TrigProof InitProof RunProof FuncExt Spec RunThms RSum RSpec RPoint RQuad RThms RThms2 RThms3
  Vmec VmecSpec Nc NcModel NcSpec NcVoc NcThms NcThms2 NcThms3 NcThms4 Plots PlotSpec PlotProof PlotWire PlotThms.
Import ListNotations.
Local Open Scope Z_scope.
Local Open Scope R_scope.

Lemma two_pi_R : two_pi RS = 2 * PI.
Proof. reflexivity. Qed.
Lemma points_R (stop : R) n : points (S := RS) stop n = map (lin stop n) (upto n).
Proof.
  unfold points. apply map_upto_ext. intros k Hk. unfold lin.
  destruct (Z.eqb_spec n 1) as [->|Hn].
  - replace k with 0%Z by lia. change (@eq R (0 * (stop - 0) + 0) 0). lra.
  - destruct (Z.ltb_spec 1 n); [|lia]. cbn [andb RS fsub fdiv fadd fmul fofZ].
    assert (IZR (n - 1) <> 0) by (apply not_0_IZR; lia).
    destruct (Z.eqb_spec k (n - 1)) as [->|].
    + change (@eq R stop (stop * IZR (n - 1) / IZR (n - 1))). field; auto.
    + change (@eq R (IZR k * ((stop - 0) / IZR (n - 1)) + 0) (stop * IZR k / IZR (n - 1))). field; auto.
Qed.
Lemma lin_mult stop n rf k : (0 < rf)%Z -> (0 <= n)%Z -> lin stop (n * rf + 1) (k * rf) = lin stop (n + 1) k.
Proof.
  intros Hr Hn. unfold lin. destruct (Z.eqb_spec (n * rf + 1) 1), (Z.eqb_spec (n + 1) 1); try lra; try nia.
  replace (n * rf + 1 - 1)%Z with (n * rf)%Z by lia. replace (n + 1 - 1)%Z with n by lia. rewrite !mult_IZR. field.
  split; apply not_0_IZR; nia.
Qed.
Lemma bsum_R a ms ns bc bs n t p : bsum (S := RS) a ms ns bc bs n t p = series n ms ns bc (onA a bs) t p.
Proof.
  unfold bsum, series, onA. etransitivity; [|etransitivity; [apply (accum_rsum n (fun k => bc k * cos (phase (ms k) (ns k) t p) + (if a then bs k else 0) * sin (phase (ms k) (ns k) t p)) 0)|lra]].
  apply accum_ext. intros k acc _. destruct a; cbn; unfold angle, phase; cbn; lra.
Qed.

(** ** surfplot *)
Section Surf.
Variables (o : obj RS) (a : bool) (nf n c : Z) (ms ns : Z -> Z) (sb : Z -> R) (V : afield -> Z -> Z -> R).
Hypothesis H : @shows RS o a nf n c ms ns sb V.

Theorem surfplot_series js nt np : (- c <= js < c)%Z -> (0 <= nt)%Z -> (0 <= np)%Z ->
  let j := wrap c js in
  let theta := lin (2 * PI) nt in
  let phi := lin (2 * PI / IZR nf) np in
  run (surfplot RS js nt np) o =
    ROk (map (fun p => map (fun q => (theta p, phi q, sB a n ms ns (fun f k => V f k j) (theta p) (phi q))) (upto np)) (upto nt), sb j) o [].
Proof.
  intros Hj Ht Hp. cbv zeta. pose proof (surfplot_yields o a nf n c ms ns sb V js nt np H Hj Ht Hp) as Y.
  unfold yields in Y. rewrite Y. unfold grid. change (fdiv RS (two_pi RS) (fofZ RS nf)) with (2 * PI / IZR nf). rewrite !points_R, two_pi_R.
  rewrite map_map. do 2 f_equal. apply map_ext. intros p. rewrite map_map. apply map_ext. intros q.
  now rewrite bsum_R.
Qed.
End Surf.

Theorem surfplot_bad_index {S} (o : obj S) a nf n c ms ns sb V js nt np : shows o a nf n c ms ns sb V ->
  (0 <= nt)%Z -> (0 <= np)%Z -> ~ (- c <= js < c)%Z -> run (surfplot S js nt np) o = RThrow "IndexError" o [].
Proof.
  intros H Ht Hp Hj. destruct (sh_pos _ _ _ _ _ _ _ _ _ H) as (P1 & P2 & P3). unfold surfplot.
  rewrite bind_run, (y_linspace _ nt o Ht). cbv iota beta.
  rewrite bind_run, (y_geti _ _ _ (sh_nfp _ _ _ _ _ _ _ _ _ H)). cbv iota beta.
  destruct (Z.eqb_spec nf 0); [lia|].
  rewrite bind_run, (y_linspace _ np o Hp). cbv iota beta.
  rewrite bind_run, (y_sizen _ _ _ _ (sh_xm _ _ _ _ _ _ _ _ _ H)). cbv iota beta.
  rewrite bind_run.
  match goal with |- context [run (for_ 0 n ?st ?body) o] => assert (E : run (for_ 0 n st body) o = RThrow "IndexError" o []) end.
  2: { rewrite E. reflexivity. }
  unfold for_. replace (Z.to_nat (n - 0)) with (Datatypes.S (Z.to_nat (n - 1))) by lia. cbn [for_from].
  rewrite bind_run, bind_run, (y_npn N_xm_b o n ms 0 (sh_xm _ _ _ _ _ _ _ _ _ H)) by lia. cbv iota beta.
  rewrite bind_run, (y_npn N_xn_b o n ns 0 (sh_xn _ _ _ _ _ _ _ _ _ H)) by lia. cbv iota beta.
  rewrite bind_run.
  assert (M : mat_is (oA o A_bmnc_b) n c (V A_bmnc_b)) by (apply (sh_V _ _ _ _ _ _ _ _ _ H); destruct a; cbn; tauto).
  assert (E : run (np2 S A_bmnc_b 0 js) o = RThrow "IndexError" o []).
  { unfold np2. cbn [run]. destruct M as (_ & _ & E1 & E2 & _). rewrite E1, E2.
    rewrite bind_run, (y_index0 o n 0) by lia. cbv iota beta. rewrite bind_run.
    unfold py_index. set (k := if (js <? 0)%Z then (js + c)%Z else js).
    assert (Hk : ~ (0 <= k < c)%Z) by (unfold k; destruct (Z.ltb_spec js 0); lia).
    destruct (Z.leb_spec 0 k), (Z.ltb_spec k c); try lia; reflexivity. }
  rewrite E. reflexivity.
Qed.

Lemma lin_first stop n : lin stop n 0 = 0.
Proof. unfold lin. destruct (Z.eqb_spec n 1); [reflexivity|]. unfold Rdiv. rewrite Rmult_0_r, Rmult_0_l. reflexivity. Qed.
Lemma lin_last stop n : (2 <= n)%Z -> lin stop n (n - 1) = stop.
Proof. intros Hn. unfold lin. destruct (Z.eqb_spec n 1); [lia|]. field. apply not_0_IZR. lia. Qed.

(** The plot covers one period: opposite edges agree. *)
Theorem surfplot_period (o : obj RS) a nf n c ms ns sb V js nt np : shows o a nf n c ms ns sb V ->
  (- c <= js < c)%Z -> (2 <= nt)%Z -> (2 <= np)%Z ->
  exists cells s, run (surfplot RS js nt np) o = ROk (cells, s) o [] /\
  exists B theta phi : Z -> Z -> R,
    (forall p q, (0 <= p < nt)%Z -> (0 <= q < np)%Z -> exists row,
       nth_error cells (Z.to_nat p) = Some row /\ nth_error row (Z.to_nat q) = Some (theta p q, phi p q, B p q)) /\
    (forall q, (0 <= q < np)%Z -> theta 0%Z q = 0 /\ theta (nt - 1)%Z q = 2 * PI /\ B (nt - 1)%Z q = B 0%Z q) /\
    (forall p, (0 <= p < nt)%Z -> phi p 0%Z = 0 /\ phi p (np - 1)%Z = 2 * PI / IZR nf /\ B p (np - 1)%Z = B p 0%Z).
Proof.
  intros H Hj Ht Hp. destruct (sh_pos _ _ _ _ _ _ _ _ _ H) as (P1 & P2 & P3).
  pose proof (surfplot_series o a nf n c ms ns sb V H js nt np Hj ltac:(lia) ltac:(lia)) as E. cbv zeta in E.
  eexists. eexists. split; [exact E|].
  set (theta := lin (2 * PI) nt) in *. set (phi := lin (2 * PI / IZR nf) np) in *.
  set (s := sB a n ms ns (fun f k => V f k (wrap c js))) in *.
  assert (Per : periodic nf s) by (apply series_per; [lia|apply (sh_mult _ _ _ _ _ _ _ _ _ H)]).
  exists (fun p q => s (theta p) (phi q)), (fun p q => theta p), (fun p q => phi q). splits.
  - intros p q Hp' Hq. eexists. split; [apply map_upto_nth; auto|]. now rewrite map_upto_nth by auto.
  - intros q Hq. unfold theta. rewrite lin_first, lin_last by lia. splits; auto.
    destruct (Per 0 (phi q)) as (E1 & _). rewrite Rplus_0_l in E1. exact E1.
  - intros p Hp'. unfold phi. rewrite lin_first, lin_last by lia. splits; auto.
    destruct (Per (theta p) 0) as (_ & E1). rewrite Rplus_0_l in E1. exact E1.
Qed.

(** surfplot and the accuracy check evaluate the same function. *)
Theorem surfplot_accuracy (o : obj RS) i : valid o i -> nfp_divides i -> (0 < verb i)%Z ->
  exists o' ev, run_ok o o' ev /\
  exists line, filter is_acc ev = map line (zseq 0 (Z.to_nat (nsurf i))) /\
  forall b, (0 <= b < nsurf i)%Z ->
  exists js I G (B : R -> R -> R),
    elemN o N_compute_surfs b = Some (Some js) /\
    elem o' A_Boozer_I b = Some (Some I) /\ elem o' A_Boozer_G b = Some (Some G) /\
    (exists first last, line b = @mkEv RS "accuracy" [b; js]
       (first ++ map (fun p => B (mTh i js I G (fst p) (snd p)) (mZe i js I G (fst p) (snd p))) (sym_points i) ++ last) /\
       first = map (fun p => mB i js (fst p) (snd p)) (sym_points i)) /\
    forall nt np, (0 <= nt)%Z -> (0 <= np)%Z -> exists s, elem o' A_s_b b = Some (Some s) /\
      let theta := lin (2 * PI) nt in
      let phi := lin (2 * PI / IZR (nfp i)) np in
      run (surfplot RS b nt np) o' =
        ROk (map (fun p => map (fun q => (theta p, phi q, B (theta p) (phi q))) (upto np)) (upto nt), s) o' [].
Proof.
  intros Hv Hd Hvb. destruct (accuracy_report o i Hv Hd Hvb) as (o' & ev & E & line & El & Hb).
  exists o', ev. split; [exact E|]. exists line. split; [exact El|]. intros b Hbr.
  destruct (Hb b Hbr) as (js & I & G & ms & ns & c & s & E1 & E2 & E3 & E4 & E5 & _).
  assert (A : after_run o' i) by (eapply after_run_intro; eauto).
  pose proof (shows_after_run o' i A) as Sh.
  set (V := fun (f : afield) (k b : Z) => o_coef i (surf i b) f k) in Sh.
  exists js, I, G, (series (mnboz i) ms ns c (onA (asym i) s)). splits; auto.
  - eexists. eexists. split; [exact E5|]. reflexivity.
  - intros nt np Ht Hp. pose proof (surfplot_series o' _ _ _ _ _ _ _ _ Sh b nt np ltac:(lia) Ht Hp) as Y. cbv zeta in Y |- *.
    rewrite wrap_id in Y by auto.
    exists (sin_ i (surf i b)). split.
    + destruct (after_run_holds RS o' i A) as (_ & _ & Q & _). exact (elem_vec _ _ _ _ b (q_s_b _ _ _ Q) Hbr).
    + rewrite Y. apply (f_equal (fun x => @ROk RS _ (x, sin_ i (surf i b)) o' [])).
      apply map_ext. intros p. apply map_ext. intros q. apply (f_equal (fun x => (lin (2 * PI) nt p, lin (2 * PI / IZR (nfp i)) np q, x))).
      unfold sB, series. apply rsum_ext. intros k Hk. destruct (E4 k Hk) as (X1 & X2 & X3 & X4).
      rewrite (elemN_vec _ _ _ _ k (sh_xm _ _ _ _ _ _ _ _ _ Sh) Hk) in X1. injection X1 as X1.
      rewrite (elemN_vec _ _ _ _ k (sh_xn _ _ _ _ _ _ _ _ _ Sh) Hk) in X2. injection X2 as X2.
      rewrite (elem2_mat _ _ _ _ _ k b (sh_V _ _ _ _ _ _ _ _ _ Sh A_bmnc_b ltac:(destruct (asym i); cbn; tauto)) Hk Hbr) in X3.
      injection X3 as X3. rewrite <- X1, <- X2. f_equal; [f_equal; exact X3|]. f_equal.
      unfold onA. destruct (asym i) eqn:Ea; [|reflexivity]. specialize (X4 eq_refl).
      rewrite (elem2_mat _ _ _ _ _ k b (sh_V _ _ _ _ _ _ _ _ _ Sh A_bmns_b ltac:(cbn; tauto)) Hk Hbr) in X4.
      injection X4 as X4. exact X4.
Qed.

(** ** wireplot *)
Section Wsum.
Variables (a : bool) (ms ns : Z -> Z) (V : afield -> Z -> R).
Definition wRt_sum (n : Z) (t z : R) : R := rsum n (fun k => IZR (- ms k) * V A_rmnc_b k * sin (phase (ms k) (ns k) t z)).
Definition wZt_sum (n : Z) (t z : R) : R := rsum n (fun k => IZR (ms k) * V A_zmns_b k * cos (phase (ms k) (ns k) t z)).
Lemma wsum_R n t z : (0 <= n)%Z ->
  wsum (S := RS) a ms ns V n t z =
  mkWc RS (sR a n ms ns V t z) (sZ a n ms ns V t z) (wRt_sum n t z) (wZt_sum n t z) (sNu a n ms ns V t z).
Proof.
  revert n. apply rsum_ind; [reflexivity|]. intros n Hn IH. unfold wsum in *. rewrite accum_succ by auto.
  rewrite IH. unfold wstep, sR, sZ, sNu, series, wRt_sum, wZt_sum. rewrite !rsum_succ by auto. unfold onA.
  cbn [wR wZ wRt wZt wNu RS fadd fmul fsin fcos fofZ]. unfold angle. cbn [fsub fmul fofZ RS].
  change (IZR (ms n) * t - IZR (ns n) * z) with (phase (ms n) (ns n) t z).
  destruct a; f_equal; change (F RS) with R; lra.
Qed.
End Wsum.
Lemma osum_R i js n t z : (0 <= n)%Z ->
  osum (S := RS) i js n t z =
  (series n (xm i) (xn i) (fun k => rmnc i k js) (onA (asym i) (fun k => rmns i k js)) t z,
   series n (xm i) (xn i) (onA (asym i) (fun k => zmnc i k js)) (fun k => zmns i k js) t z).
Proof.
  revert n. apply rsum_ind; [reflexivity|]. intros n Hn IH. unfold osum in *. rewrite accum_succ by auto.
  rewrite IH. unfold ostep, series. rewrite !rsum_succ by auto. unfold onA.
  cbn [fst snd RS fadd fmul fsin fcos fofZ]. unfold angle. cbn [fsub fmul fofZ RS].
  change (IZR (xm i n) * t - IZR (xn i n) * z) with (phase (xm i n) (xn i n) t z).
  destruct (asym i); f_equal; change (F RS) with R; lra.
Qed.
Lemma map_points {T} (g : R -> T) N : map g (points (S := RS) (two_pi RS) N) = map (fun p => g (lin (2 * PI) N p)) (upto N).
Proof. rewrite two_pi_R, points_R, map_map. reflexivity. Qed.
Lemma rows_curves1 (P : R -> R -> R * R * R) nt np rf : (2 <= rf)%Z -> (0 <= nt)%Z ->
  every RS rf (map (fun t => map (P t) (points (S := RS) (two_pi RS) (np * rf + 1))) (points (S := RS) (two_pi RS) (nt * rf + 1))) = curves1 P nt np rf.
Proof.
  intros Hr Hn. rewrite map_points. etransitivity; [exact (every_spec (S := RS) rf nt (fun p => map (P (lin (2 * PI) (nt * rf + 1) p)) (points (S := RS) (two_pi RS) (np * rf + 1))) Hr Hn)|].
  unfold curves1. apply map_ext. intros p. rewrite lin_mult by lia. apply map_points.
Qed.
Lemma rows_curves2 (P : R -> R -> R * R * R) nt np rf : (2 <= rf)%Z -> (0 <= np)%Z ->
  every RS rf (map (fun p => map (fun t => P t p) (points (S := RS) (two_pi RS) (nt * rf + 1))) (points (S := RS) (two_pi RS) (np * rf + 1))) = curves2 P nt np rf.
Proof.
  intros Hr Hn. rewrite map_points. etransitivity; [exact (every_spec (S := RS) rf np (fun q => map (fun t => P t (lin (2 * PI) (np * rf + 1) q)) (points (S := RS) (two_pi RS) (nt * rf + 1))) Hr Hn)|].
  unfold curves2. apply map_ext. intros p. rewrite lin_mult by lia. apply (map_points (fun t => P t _)).
Qed.

Section Wire.
Variables (o : obj RS) (a : bool) (nf n c : Z) (ms ns : Z -> Z) (sb : Z -> R) (V : afield -> Z -> Z -> R).
Hypothesis H : @shows RS o a nf n c ms ns sb V.
Variables (js : option Z) (nt np rf : Z) (sf : bool).
Hypothesis Hj : (- c <= match js with Some j => j | None => c - 1 end < c)%Z.
Hypothesis Ht : (0 <= nt)%Z.
Hypothesis Hp : (0 <= np)%Z.
Let j := surf_index c js.
Let Vj := fun f k => V f k j.

Definition shrunk (t z : R) : R * R * R := wshrunk (S := RS)
  (mkWc RS (sR a n ms ns Vj t z) (sZ a n ms ns Vj t z) (wRt_sum ms ns Vj n t z) (wZt_sum ms ns Vj n t z) (sNu a n ms ns Vj t z)) z.
Lemma wire_all i (orig : bool) : (0 <= rf)%Z ->
  (orig = true -> repr o i /\ ok_inp i /\ nsurf i = c) ->
  exists w, run (wireplot RS js nt np rf sf orig) o = ROk w o [] /\
  (2 <= rf -> wi_boozer_theta RS w = curves1 (boozer_point a n ms ns Vj) nt np rf /\
    wi_boozer_zeta RS w = curves2 (boozer_point a n ms ns Vj) nt np rf)%Z /\
  (2 <= rf -> wi_orig_theta RS w = (if orig then curves1 (orig_point i (surf i j)) nt np rf else []) /\
    wi_orig_zeta RS w = (if orig then curves2 (orig_point i (surf i j)) nt np rf else []))%Z /\
  (rf = 1%Z -> wi_boozer_theta RS w = [] /\ wi_boozer_zeta RS w = [] /\ wi_orig_theta RS w = [] /\ wi_orig_zeta RS w = []) /\
  wi_surface RS w = (if sf then Some (map (fun p => map (fun q => shrunk (lin (2 * PI) (nt * rf + 1) p) (lin (2 * PI) (np * rf + 1) q)) (upto (np * rf + 1))) (upto (nt * rf + 1))) else None).
Proof.
  intros Hr Ho. destruct (sh_pos _ _ _ _ _ _ _ _ _ H) as (P1 & P2 & P3).
  pose proof (wireplot_yields o a nf n c ms ns sb V i js nt np rf sf orig H Ht Hp Hr Hj Ho) as Y. cbv zeta in Y. fold j in Y.
  eexists. split; [exact Y|]. clear Y. cbn [wi_boozer_theta wi_boozer_zeta wi_orig_theta wi_orig_zeta wi_surface].
  assert (EP : forall t p, wpoint (S := RS) (wsum (S := RS) a ms ns (fun f k => V f k j) n t p) p = boozer_point a n ms ns Vj t p).
  { intros t p. rewrite wsum_R by lia. reflexivity. }
  assert (EO : orig = true -> forall t p, cart RS (fst (osum (S := RS) i (surf i j) (mnmax i) t p)) (snd (osum (S := RS) i (surf i j) (mnmax i) t p)) p = orig_point i (surf i j) t p).
  { intros Eo t p. destruct (Ho Eo) as (_ & O & _). rewrite osum_R by (pose proof (ok_mnmax _ _ O); lia). reflexivity. }
  splits.
  - intros H2. split.
    + rewrite <- (rows_curves1 (boozer_point a n ms ns Vj)) by auto. f_equal. apply map_ext. intros t. apply map_ext. intros p. apply EP.
    + rewrite <- (rows_curves2 (boozer_point a n ms ns Vj)) by auto. f_equal. apply map_ext. intros t. apply map_ext. intros p. apply EP.
  - intros H2. destruct orig; [|auto]. split.
    + rewrite <- (rows_curves1 (orig_point i (surf i j))) by auto. f_equal. apply map_ext. intros t. apply map_ext. intros p. now apply EO.
    + rewrite <- (rows_curves2 (orig_point i (surf i j))) by auto. f_equal. apply map_ext. intros t. apply map_ext. intros p. now apply EO.
  - intros E. splits; try (destruct orig); try reflexivity; now apply every_none.
  - destruct sf; [|reflexivity]. f_equal. rewrite map_points. apply map_ext. intros p. rewrite map_points. apply map_ext. intros q.
    rewrite wsum_R by lia. reflexivity.
Qed.
End Wire.

(** Properties C49, C50, C55 - C57: plots.py; and C16 for functions. *)
From Coq Require Import ZArith QArith List String Bool Reals Permutation Sorted.
From Verif Require Import Scalar Prog Model Wp Func FuncExt Spec RunProof RunThms RSum RSpec RPoint RThms RThms2 RThms3 Vmec VmecSpec
  Nc NcModel NcSpec NcVoc NcThms4 Plots PlotSpec PlotThms PlotReal PlotReal2 PlotReal3 PlotEx.
Import ListNotations.
Local Open Scope Z_scope.

(** ** C16 *)
Theorem C16_identity_functions : forall (o : obj RS) i, valid o i ->
  resolved i (mnmax i) (xm i) (xn i) -> resolved i (mnmaxq i) (xmq i) (xnq i) ->
  exists o' ev V, run_ok o o' ev /\ after_run o' i /\
  shows o' (asym i) (nfp i) (mnboz i) (nsurf i) (xm_b i) (xn_b i) (fun b => sin_ i (surf i b)) V /\
  forall b, 0 <= b < nsurf i -> in_boozer i (surf i b) ->
    (bG i (surf i b) + iota i (surf i b) * bI i (surf i b))%R <> 0%R ->
    let fn g := g (asym i) (mnboz i) (xm_b i) (xn_b i) (fun f k => V f k b) in
    forall t z, fn sB t z = mB i (surf i b) t z /\ fn sR t z = mR i (surf i b) t z /\ fn sZ t z = mZ i (surf i b) t z /\ fn sNu t z = 0%R.
Proof. exact identity_functions. Qed.
Example C16_functions_case : forall asy bc bs rc rs zc zs, let i := ex_modes asy bc bs rc rs zc zs in
  valid (obj_of i) i /\ (resolved i (mnmax i) (xm i) (xn i) /\ resolved i (mnmaxq i) (xmq i) (xnq i)) /\
  forall js, in_boozer i js /\ (bG i js + iota i js * bI i js)%R <> 0%R.
Proof.
  exact (fun asy bc bs rc rs zc zs => conj (exm_valid asy bc bs rc rs zc zs) (conj (exm_resolved asy bc bs rc rs zc zs)
    (fun js => conj (exm_boozer asy bc bs rc rs zc zs js) (exm_den asy bc bs rc rs zc zs js)))).
Qed.

(** ** C49 *)
Theorem C49_surfplot : forall (o : obj RS) a nf n c ms ns (sb : Z -> R) (V : afield -> Z -> Z -> R), @shows RS o a nf n c ms ns sb V ->
  forall js nt np, - c <= js < c -> 0 <= nt -> 0 <= np ->
  let j := wrap c js in
  let theta := lin (2 * PI) nt in
  let phi := lin (2 * PI / IZR nf) np in
  run (surfplot RS js nt np) o =
    ROk (map (fun p => map (fun q => (theta p, phi q, sB a n ms ns (fun f k => V f k j) (theta p) (phi q))) (upto np)) (upto nt), sb j) o [].
Proof. exact surfplot_series. Qed.
Theorem C49_report : forall (o : obj RS) i, valid o i -> nfp_divides i -> 0 < verb i ->
  exists o' ev, run_ok o o' ev /\
  exists line, filter is_acc ev = map line (zseq 0 (Z.to_nat (nsurf i))) /\
  forall b, 0 <= b < nsurf i ->
  exists js I G (B : R -> R -> R),
    elemN o N_compute_surfs b = Some (Some js) /\
    elem o' A_Boozer_I b = Some (Some I) /\ elem o' A_Boozer_G b = Some (Some G) /\
    (exists first last, line b = @mkEv RS "accuracy" [b; js]
       (first ++ map (fun p => B (mTh i js I G (fst p) (snd p)) (mZe i js I G (fst p) (snd p))) (sym_points i) ++ last) /\
       first = map (fun p => mB i js (fst p) (snd p)) (sym_points i)) /\
    forall nt np, 0 <= nt -> 0 <= np -> exists s, elem o' A_s_b b = Some (Some s) /\
      let theta := lin (2 * PI) nt in
      let phi := lin (2 * PI / IZR (nfp i)) np in
      run (surfplot RS b nt np) o' =
        ROk (map (fun p => map (fun q => (theta p, phi q, B (theta p) (phi q))) (upto np)) (upto nt), s) o' [].
Proof. exact surfplot_accuracy. Qed.
Theorem C49_period : forall (o : obj RS) a nf n c ms ns sb V js nt np, shows o a nf n c ms ns sb V ->
  - c <= js < c -> 2 <= nt -> 2 <= np ->
  exists cells s, run (surfplot RS js nt np) o = ROk (cells, s) o [] /\
  exists B theta phi : Z -> Z -> R,
    (forall p q, 0 <= p < nt -> 0 <= q < np -> exists row,
       nth_error cells (Z.to_nat p) = Some row /\ nth_error row (Z.to_nat q) = Some (theta p q, phi p q, B p q)) /\
    (forall q, 0 <= q < np -> theta 0 q = 0%R /\ theta (nt - 1) q = (2 * PI)%R /\ B (nt - 1) q = B 0 q) /\
    (forall p, 0 <= p < nt -> phi p 0 = 0%R /\ phi p (np - 1) = (2 * PI / IZR nf)%R /\ B p (np - 1) = B p 0).
Proof. exact surfplot_period. Qed.
Theorem C49_bad_index : forall (S : Scalar) (o : obj S) a nf n c ms ns sb V js nt np, shows o a nf n c ms ns sb V ->
  0 <= nt -> 0 <= np -> ~ (- c <= js < c) -> run (surfplot S js nt np) o = RThrow "IndexError" o [].
Proof. exact @surfplot_bad_index. Qed.
(** After run(), and after read_boozmn(), the hypothesis [shows] holds. *)
Theorem C49_after_run : forall (S : Scalar) (o : obj S) i, after_run o i ->
  shows o (asym i) (nfp i) (mnboz i) (nsurf i) (xm_b i) (xn_b i) (fun b => sin_ i (surf i b)) (fun f k b => o_coef i (surf i b) f k).
Proof. exact @shows_after_run. Qed.
Theorem C49_after_read : forall (S : Scalar) (d : bdat S) (o o' : obj S), bsane S d -> loaded S d o o' -> 1 <= b_nfp S d ->
  b_xm S d 0 = 0 -> b_xn S d 0 = 0 -> (forall k, 0 <= k < b_mnboz S d -> (b_nfp S d | b_xn S d k)) ->
  shows o' (b_asym S d) (b_nfp S d) (b_mnboz S d) (b_nsurf S d) (b_xm S d) (b_xn S d)
    (fun j => f1 S / (fofZ S (b_ns S d) - f1 S) * (fofZ S (b_jlist S d j - 2) + flit S (1 # 2)))%sc
    (fun f k b => bsign S f (b_mat S d f k b)).
Proof. exact @shows_after_read. Qed.
Theorem C49_only_read : forall (S : Scalar) (o : obj S) a, oB o B_asym = Some a ->
  (forall js nt np, leaves (run (surfplot S js nt np) o) o) /\
  (forall mm mn ym sq lg B0 rm dt, leaves (run (symplot S mm mn ym sq lg B0 rm dt) o) o) /\
  (forall as_ nm ym sq lg B0 rm, leaves (run (modeplot S as_ nm ym sq lg B0 rm) o) o) /\
  (forall js nt np rf sf og, leaves (run (wireplot S js nt np rf sf og) o) o).
Proof. exact @plots_only_read. Qed.
Example C49_case : forall asy bc bs rc rs zc zs, let i := ex_modes asy bc bs rc rs zc zs in exists o V,
  after_run o i /\ @shows RS o asy 1 3 2 (xm_b i) (xn_b i) (fun b => if Z.eqb b 0 then 3 / 4 else 1 / 4)%R V /\
  forall k b, 0 <= k < 3 -> 0 <= b < 2 ->
    V A_bmnc_b k b = bc k (1 - b) /\ V A_rmnc_b k b = rc k (1 - b) /\ (k <> 0 -> V A_zmns_b k b = zs k (1 - b)) /\ V A_numns_b k b = 0%R /\
    (asy = true -> (k <> 0 -> V A_bmns_b k b = bs k (1 - b) /\ V A_rmns_b k b = rs k (1 - b)) /\
       V A_zmnc_b k b = zc k (1 - b) /\ V A_numnc_b k b = 0%R).
Proof. exact exm_out. Qed.

(** ** C50 *)
Theorem C50_modeplot : forall (o : obj RS) a nf n c ms ns sb V argsort nm ym sq lg B0 rm,
  shows o a nf n c ms ns sb V -> 1 <= c -> sorts (S := RS) argsort -> 0 <= nm <= count B0 n ->
  let size k := Rabs (ampl (S := RS) ms ns V rm k (c - 1)) in
  exists l,
  run (modeplot RS argsort nm ym sq lg B0 rm) o =
    ROk (mkPlot RS (negb lg) [] (map (fun k => mode_curve c ms ns sb V rm sq lg Cycle (Mode (ms k) (ns k)) k) l)
           (if lg then Some (lower ym n c (V A_bmnc_b)) else None)) o [] /\
  Z.of_nat (List.length l) = nm /\ NoDup l /\ (forall k, In k l -> eligible B0 n k) /\
  (forall k k', In k l -> eligible B0 n k' -> ~ In k' l -> (size k' <= size k)%R) /\
  (forall p q k k', (p < q)%nat -> nth_error l p = Some k -> nth_error l q = Some k' -> (size k' <= size k)%R).
Proof. exact modeplot_real. Qed.
Theorem C50_modeplot_any : forall (S : Scalar) (o : obj S) a nf n c ms ns sb V, shows o a nf n c ms ns sb V -> 1 <= c ->
  forall argsort, sorts argsort -> forall nm ym sq lg B0 rm, 0 <= nm <= count B0 n ->
  let key k := fneg S (fabs S (ampl ms ns V rm k (c - 1))) in
  exists l,
  run (modeplot S argsort nm ym sq lg B0 rm) o =
    ROk (mkPlot S (negb lg) [] (map (fun k => mode_curve c ms ns sb V rm sq lg Cycle (Mode (ms k) (ns k)) k) l)
           (if lg then Some (lower ym n c (V A_bmnc_b)) else None)) o [] /\
  Z.of_nat (List.length l) = nm /\ NoDup l /\ (forall k, In k l -> eligible B0 n k) /\
  (forall k k', In k l -> eligible B0 n k' -> ~ In k' l -> flt S (key k') (key k) = false) /\
  (forall p q k k', (p < q)%nat -> nth_error l p = Some k -> nth_error l q = Some k' -> flt S (key k') (key k) = false).
Proof. exact @modeplot_largest. Qed.
Theorem C50_too_many : forall (S : Scalar) (o : obj S) a nf n c ms ns sb V, shows o a nf n c ms ns sb V -> 1 <= c ->
  forall argsort, sorts argsort -> forall nm ym sq lg B0 rm, count B0 n < nm ->
  run (modeplot S argsort nm ym sq lg B0 rm) o = RThrow "IndexError" o [].
Proof. exact @modeplot_too_many. Qed.
Theorem C50_outermost_refuted : exists (o : obj RS) i a nf n c ms ns sb V b,
  after_run o i /\ shows o a nf n c ms ns sb V /\ 0 <= b < c /\ (forall b', 0 <= b' < c -> (sb b' <= sb b)%R) /\
  forall argsort, sorts (S := RS) argsort -> exists pl k k',
    run (modeplot RS argsort 1 None false true false None) o = ROk pl o [] /\
    pl_curves RS pl = [mode_curve c ms ns sb V None false true Cycle (Mode (ms k) (ns k)) k] /\
    eligible false n k /\ eligible false n k' /\ (Rabs (V A_bmnc_b k b) < Rabs (V A_bmnc_b k' b))%R.
Proof. exact modeplot_outermost_wrong. Qed.
Theorem C50_asym_refuted : exists (o : obj RS) i nf n c ms ns sb V,
  after_run o i /\ shows o true nf n c ms ns sb V /\ 1 <= c /\
  forall argsort, sorts (S := RS) argsort -> exists pl k k',
    run (modeplot RS argsort 1 None false true false None) o = ROk pl o [] /\
    pl_curves RS pl = [mode_curve c ms ns sb V None false true Cycle (Mode (ms k) (ns k)) k] /\
    eligible false n k /\ eligible false n k' /\
    forall b, 0 <= b < c -> ((V A_bmnc_b k b)² + (V A_bmns_b k b)² < (V A_bmnc_b k' b)² + (V A_bmns_b k' b)²)%R.
Proof. exact modeplot_asym_wrong. Qed.
Example C50_case : sorts (S := RS) insertion /\ exists o V,
  shows (S := RS) o false 1 3 2 (fun k => k) (fun _ => 0) (fun b => if Z.eqb b 0 then 3 / 4 else 1 / 4)%R V /\
  0 <= 2 <= count false 3 /\ V A_bmnc_b 1 1 = 5%R /\ V A_bmnc_b 2 1 = (-7)%R.
Proof. exact case50. Qed.

(** ** C55 *)
Theorem C55_symplot : forall (S : Scalar) (o : obj S) a nf n c ms ns sb V, shows o a nf n c ms ns sb V -> 1 <= c ->
  forall mm mn ym sq lg B0 rm dt, exists pl l,
  run (symplot S mm mn ym sq lg B0 rm dt) o = ROk pl o [] /\
  pl_zero S pl = negb lg /\ pl_ymin S pl = (if lg then Some (lower ym n c (ampl ms ns V rm)) else None) /\
  pl_curves S pl = map (fun p => mode_curve c ms ns sb V rm sq lg (snd p) NoLabel (fst p)) l /\
  StronglySorted Z.lt (map fst l) /\
  (forall k col, In (k, col) l <-> 0 <= k < n /\ selected mm mn B0 nf (ms k) (ns k) /\ has_color dt nf (ms k) (ns k) col).
Proof. exact @symplot_modes. Qed.
Theorem C55_legend : forall (S : Scalar) (o : obj S) a nf n c ms ns sb V, shows o a nf n c ms ns sb V -> 1 <= c ->
  forall mm mn ym sq lg B0 rm dt, exists pl,
  run (symplot S mm mn ym sq lg B0 rm dt) o = ROk pl o [] /\
  NoDup (map (cv_color S) (pl_legend S pl)) /\
  (forall cv, In cv (pl_legend S pl) -> exists k, is_first n ms ns (legend_class nf B0 dt (cv_color S cv)) k /\
     cv = mode_curve c ms ns sb V rm sq lg (cv_color S cv) (Text (legend_text dt (cv_color S cv))) k) /\
  (forall col k, 0 <= k < n -> legend_class nf B0 dt col (ms k) (ns k) -> exists cv, In cv (pl_legend S pl) /\ cv_color S cv = col).
Proof. exact @symplot_legend. Qed.
Theorem C55_legend_refuted : forall S : Scalar, exists (o : obj S) i, after_run o i /\
  (exists pl, run (symplot S 20 20 None false true true None false) o = ROk pl o [] /\
     (exists cv, In cv (pl_curves S pl) /\ cv_color S cv = Helical) /\ forall cv, In cv (pl_legend S pl) -> cv_color S cv <> Helical) /\
  (exists pl, run (symplot S 20 20 None false true true None true) o = ROk pl o [] /\
     (exists cv, In cv (pl_legend S pl) /\ cv_color S cv = Helical) /\ forall cv, In cv (pl_curves S pl) -> cv_color S cv <> Helical) /\
  (exists pl, run (symplot S 0 20 None false true true None false) o = ROk pl o [] /\
     (exists cv, In cv (pl_legend S pl) /\ cv_color S cv = QA) /\ forall cv, In cv (pl_curves S pl) -> cv_color S cv <> QA).
Proof. exact @symplot_legend_wrong. Qed.
Theorem C55_ymin_refuted : exists (o : obj RS) i nf n c ms ns sb V pl rm,
  after_run o i /\ shows o false nf n c ms ns sb V /\ 1 <= c /\
  run (symplot RS 20 20 None false true true rm false) o = ROk pl o [] /\ pl_ymin RS pl = Some 0%R /\
  exists k, 0 <= k < n /\ forall b, 0 <= b < c -> Rabs (ampl (S := RS) ms ns V rm k b) = 1%R.
Proof. exact symplot_ymin_wrong. Qed.
Example C55_case : forall S, exists o : obj S, after_run o (ex_inp S false) /\ 1 <= nsurf (ex_inp S false).
Proof. exact case55. Qed.

(** ** C56 *)
Theorem C56_curves : forall (o : obj RS) a nf n c ms ns (sb : Z -> R) (V : afield -> Z -> Z -> R), @shows RS o a nf n c ms ns sb V ->
  forall js nt np rf, - c <= (match js with Some j => j | None => c - 1 end) < c -> 0 <= nt -> 0 <= np ->
  forall i orig sf, 2 <= rf -> (orig = true -> after_run o i /\ nsurf i = c) ->
  let j := surf_index c js in
  exists w, run (wireplot RS js nt np rf sf orig) o = ROk w o [] /\
    wi_boozer_theta RS w = curves1 (boozer_point a n ms ns (fun f k => V f k j)) nt np rf /\
    wi_boozer_zeta RS w = curves2 (boozer_point a n ms ns (fun f k => V f k j)) nt np rf /\
    wi_orig_theta RS w = (if orig then curves1 (orig_point i (surf i j)) nt np rf else []) /\
    wi_orig_zeta RS w = (if orig then curves2 (orig_point i (surf i j)) nt np rf else []).
Proof. exact wire_curves. Qed.
Theorem C56_same_point : forall i js (I G : R) a n ms ns V (t z : R),
  sR a n ms ns V (mTh i js I G t z) (mZe i js I G t z) = mR i js t z ->
  sZ a n ms ns V (mTh i js I G t z) (mZe i js I G t z) = mZ i js t z ->
  sNu a n ms ns V (mTh i js I G t z) (mZe i js I G t z) = mNu i js I G t z ->
  boozer_point a n ms ns V (mTh i js I G t z) (mZe i js I G t z) = orig_point i js t z.
Proof. exact same_point. Qed.
Theorem C56_identity : forall (o : obj RS) i, valid o i ->
  resolved i (mnmax i) (xm i) (xn i) -> resolved i (mnmaxq i) (xmq i) (xnq i) ->
  exists o' ev, run_ok o o' ev /\
  forall js nt np rf sf,
    - nsurf i <= (match js with Some j => j | None => nsurf i - 1 end) < nsurf i -> 0 <= nt -> 0 <= np -> 2 <= rf ->
    let s := surf i (surf_index (nsurf i) js) in
    in_boozer i s -> (bG i s + iota i s * bI i s)%R <> 0%R ->
    exists w, run (wireplot RS js nt np rf sf true) o' = ROk w o' [] /\
    wi_boozer_theta RS w = wi_orig_theta RS w /\ wi_boozer_zeta RS w = wi_orig_zeta RS w /\
    wi_orig_theta RS w = curves1 (orig_point i s) nt np rf /\ wi_orig_zeta RS w = curves2 (orig_point i s) nt np rf.
Proof. exact wire_identity. Qed.
Theorem C56_surface : forall (o : obj RS) a nf n c ms ns (sb : Z -> R) (V : afield -> Z -> Z -> R), @shows RS o a nf n c ms ns sb V ->
  forall js nt np rf, - c <= (match js with Some j => j | None => c - 1 end) < c -> 0 <= nt -> 0 <= np -> a = false -> 0 <= rf ->
  let Vj := fun f k => V f k (surf_index c js) in
  exists w (Q : R -> R -> point RS),
  run (wireplot RS js nt np rf true false) o = ROk w o [] /\
  wi_surface RS w = Some (map (fun p => map (fun q => Q (lin (2 * PI) (nt * rf + 1) p) (lin (2 * PI) (np * rf + 1) q)) (upto (np * rf + 1))) (upto (nt * rf + 1))) /\
  forall t z rt zt : R, derivable_pt_lim (fun x => sR a n ms ns Vj x z) t rt -> derivable_pt_lim (fun x => sZ a n ms ns Vj x z) t zt ->
    rt <> 0%R \/ zt <> 0%R ->
    exists r' z' : R, Q t z = cyl r' (z - sNu a n ms ns Vj t z) z' /\ left_of (sR a n ms ns Vj t z) (sZ a n ms ns Vj t z) rt zt r' z'.
Proof. exact wire_surface. Qed.
Theorem C56_surface_refuted : exists (o : obj RS) i nf n c ms ns sb V w x rt zt,
  after_run o i /\ shows o true nf n c ms ns sb V /\ 1 <= c /\
  run (wireplot RS None 1 1 1 true false) o = ROk w o [] /\
  (exists rows, wi_surface RS w = Some rows /\ nth 0 (nth 0 rows []) (0, 0, 0)%R = x) /\
  let Vj := fun f k => V f k (c - 1) in
  derivable_pt_lim (fun t => sR true n ms ns Vj t 0) 0 rt /\ derivable_pt_lim (fun t => sZ true n ms ns Vj t 0) 0 zt /\
  (rt <> 0%R \/ zt <> 0%R) /\
  forall r' z', x = cyl r' (0 - sNu true n ms ns Vj 0 0) z' -> ~ left_of (sR true n ms ns Vj 0 0) (sZ true n ms ns Vj 0 0) rt zt r' z'.
Proof. exact wire_surface_wrong. Qed.
Theorem C56_refine1_refuted : exists (o : obj RS) i, after_run o i /\ 2 <= nsurf i /\
  forall nt np sf orig, 1 <= nt -> 1 <= np -> exists w, run (wireplot RS None nt np 1 sf orig) o = ROk w o [] /\
    wi_boozer_theta RS w = [] /\ wi_boozer_zeta RS w = [] /\ wi_orig_theta RS w = [] /\ wi_orig_zeta RS w = [].
Proof. exact refine1_refuted. Qed.
Theorem C56_outermost_refuted : exists (o : obj RS) i a nf n c ms ns sb V b,
  after_run o i /\ shows o a nf n c ms ns sb V /\ 0 <= b < c /\ (forall b', 0 <= b' < c -> (sb b' <= sb b)%R) /\
  forall nt np rf sf, 0 <= nt -> 0 <= np -> 2 <= rf -> exists w,
    run (wireplot RS None nt np rf sf false) o = ROk w o [] /\
    wi_boozer_theta RS w <> curves1 (boozer_point a n ms ns (fun f k => V f k b)) nt np rf.
Proof. exact wire_outermost_wrong. Qed.
Example C56_case : forall asy bc bs rc rs zc zs, let i := ex_modes asy bc bs rc rs zc zs in
  valid (obj_of i) i /\ (resolved i (mnmax i) (xm i) (xn i) /\ resolved i (mnmaxq i) (xmq i) (xnq i)) /\
  forall js, in_boozer i js /\ (bG i js + iota i js * bI i js)%R <> 0%R.
Proof. exact C16_functions_case. Qed.

(** ** C57 *)
Theorem C57_plot_of_file : forall (S : Scalar) version x (w : world S) i, (forall y : F S, fneg S (fneg S y) = y) ->
  writable version (wO w) i -> open_ok w -> lucky S w -> vmec_grid (wO w) i ->
  exists w1, write_boozmn S version x w = IOk tt w1 /\
  (forall js nt np, same_outcome (on_file S x (surfplot S js nt np) w1) (run (surfplot S js nt np) (wO w))) /\
  (forall mm mn ym sq lg B0 rm dt, same_outcome (on_file S x (symplot S mm mn ym sq lg B0 rm dt) w1) (run (symplot S mm mn ym sq lg B0 rm dt) (wO w))) /\
  (forall as_ nm ym sq lg B0 rm, same_outcome (on_file S x (modeplot S as_ nm ym sq lg B0 rm) w1) (run (modeplot S as_ nm ym sq lg B0 rm) (wO w))) /\
  (forall js nt np rf sf, same_outcome (on_file S x (wireplot S js nt np rf sf false) w1) (run (wireplot S js nt np rf sf false) (wO w))).
Proof. exact @plot_of_file. Qed.
Theorem C57_orig : forall (S : Scalar) version x (w : world S) i, (forall y : F S, fneg S (fneg S y) = y) ->
  writable version (wO w) i -> open_ok w -> lucky S w -> vmec_grid (wO w) i ->
  exists w1, write_boozmn S version x w = IOk tt w1 /\
  forall js nt np rf sf, 0 <= nt -> 0 <= np -> 0 <= rf ->
    - nsurf i <= (match js with Some j => j | None => nsurf i - 1 end) < nsurf i ->
    (exists v, run (wireplot S js nt np rf sf true) (wO w) = ROk v (wO w) []) /\
    (exists why, on_file S x (wireplot S js nt np rf sf true) w1 = IUB why).
Proof. exact @wireplot_file_orig. Qed.
Theorem C57_orig_refuted : exists version x (w w1 : world RS) i,
  writable version (wO w) i /\ write_boozmn RS version x w = IOk tt w1 /\
  (exists v, run (wireplot RS None 15 15 10 true true) (wO w) = ROk v (wO w) []) /\
  (exists why, on_file RS x (wireplot RS None 15 15 10 true true) w1 = IUB why).
Proof. exact orig_refuted. Qed.
Example C57_case : forall asy bc bs rc rs zc zs, exists o : obj RS, writable "0.0.8" o (ex_modes asy bc bs rc rs zc zs) /\
  vmec_grid o (ex_modes asy bc bs rc rs zc zs).
Proof. exact exm_written. Qed.

Print Assumptions C16_identity_functions.
Print Assumptions C49_surfplot.
Print Assumptions C49_report.
Print Assumptions C49_period.
Print Assumptions C49_bad_index.
Print Assumptions C49_after_run.
Print Assumptions C49_after_read.
Print Assumptions C49_only_read.
Print Assumptions C50_modeplot.
Print Assumptions C50_modeplot_any.
Print Assumptions C50_too_many.
Print Assumptions C50_outermost_refuted.
Print Assumptions C50_asym_refuted.
Print Assumptions C55_symplot.
Print Assumptions C55_legend.
Print Assumptions C55_legend_refuted.
Print Assumptions C55_ymin_refuted.
Print Assumptions C56_curves.
Print Assumptions C56_same_point.
Print Assumptions C56_identity.
Print Assumptions C56_surface.
Print Assumptions C56_surface_refuted.
Print Assumptions C56_refine1_refuted.
Print Assumptions C56_outermost_refuted.
Print Assumptions C57_plot_of_file.
Print Assumptions C57_orig.
Print Assumptions C57_orig_refuted.

(** Theorems about plots.py for any arithmetic. *)
From Coq Require Import ZArith QArith List String Bool Lia Permutation Sorted.
From Verif Require Import Scalar Prog Model Wp Func Step TrigProof InitProof RunProof FuncExt Spec RunThms
  Vmec VmecSpec Nc NcModel NcSpec NcVoc NcThms NcThms2 NcThms3 NcThms4 Plots PlotSpec PlotProof PlotWire.
Import ListNotations.
Local Open Scope Z_scope.

(** ** Programs that only read *)
Inductive key : Set := KI (f : ifield) | KB (f : bfield) | KN (f : nfield) | KA (f : afield).
Section Reads.
Context {S : Scalar}.
Notation obj := (obj S).
Variable K : list key.
Variable a : bool.
Inductive rd {A} : prog S A -> Prop :=
| rd_ret x : rd (Ret x)
| rd_throw m : rd (Throw m)
| rd_ub y : rd (UB y)
| rd_geti f k : In (KI f) K -> (forall v, rd (k v)) -> rd (GetI f k)
| rd_getb k : rd (k a) -> rd (GetB B_asym k)
| rd_getn f j k : In (KN f) K -> (forall v, rd (k v)) -> rd (GetN f j k)
| rd_sizen f k : In (KN f) K -> (forall v, rd (k v)) -> rd (SizeN f k)
| rd_geta f j k : In (KA f) K -> (forall v, rd (k v)) -> rd (GetA f j k)
| rd_dima f k : In (KA f) K -> (forall r c, rd (k r c)) -> rd (DimA f k).
Lemma rd_bind {A B} (p : prog S A) (k : A -> prog S B) : rd p -> (forall v, rd (k v)) -> rd (bind p k).
Proof. intros H Hk. induction H; cbn [bind]; try (constructor; auto; fail). apply Hk. Qed.
Lemma rd_asym {B} (k : bool -> prog S B) : rd (k a) -> rd (bind (getb B_asym) k).
Proof. intros H. cbn. now constructor. Qed.
Lemma rd_forf {St} n : forall lo (st : St) body, (forall j s, rd (body j s)) -> rd (for_from n lo st body).
Proof. induction n as [|n IH]; intros lo st body H; cbn [for_from]; [constructor|]. apply rd_bind; auto. Qed.
Lemma rd_for {St} lo hi (st : St) body : (forall j s, rd (body j s)) -> rd (for_ lo hi st body).
Proof. apply rd_forf. Qed.

Record agree (o o' : obj) : Prop := mkAgree {
  ag_B : oB o B_asym = Some a /\ oB o' B_asym = Some a;
  ag_I : forall f, In (KI f) K -> oI o f = oI o' f;
  ag_N : forall f, In (KN f) K -> oN o f = oN o' f;
  ag_A : forall f, In (KA f) K -> oA o f = oA o' f
}.
Definition same_result {A} (o o' : obj) (r r' : res S A) : Prop :=
  match r, r' with
  | ROk x q ev, ROk x' q' ev' => x = x' /\ q = o /\ q' = o' /\ ev = [] /\ ev' = []
  | RThrow m q ev, RThrow m' q' ev' => m = m' /\ q = o /\ q' = o' /\ ev = [] /\ ev' = []
  | RUB y, RUB y' => y = y'
  | _, _ => False
  end.
Lemma rd_run {A} (p : prog S A) o o' : agree o o' -> rd p -> same_result o o' (run p o) (run p o').
Proof.
  intros G H. induction H; cbn [run]; try (cbn; repeat split; reflexivity).
  - rewrite (ag_I _ _ G f H). destruct (oI o' f); [auto|reflexivity].
  - destruct (ag_B _ _ G) as (-> & ->). auto.
  - rewrite (ag_N _ _ G f H). destruct (znth _ j) as [[v|]|]; [auto|reflexivity|reflexivity].
  - rewrite (ag_N _ _ G f H). auto.
  - rewrite (ag_A _ _ G f H). destruct (znth _ j) as [[v|]|]; [auto|reflexivity|reflexivity].
  - rewrite (ag_A _ _ G f H). auto.
Qed.
End Reads.

Section PlotThms.
Context {S : Scalar}.
Notation obj := (obj S).
Notation F := (F S).
Notation toF := (fofZ S).
Notation world := (world S).

(** The members the plots use *)
Definition plot_keys (a : bool) : list key :=
  map KI [I_nfp; I_mnboz; I_ns_b] ++ map KN [N_xm_b; N_xn_b] ++ [KA A_s_b] ++ map KA (outs a).
Definition orig_keys (a : bool) : list key :=
  [KI I_mnmax; KN N_compute_surfs; KN N_xm; KN N_xn; KA A_rmnc; KA A_zmns] ++ (if a then [KA A_rmns; KA A_zmnc] else []).

Ltac inK := solve [cbn; repeat (first [left; reflexivity | right])].
Ltac rd_step :=
  first [ apply rd_asym | apply rd_bind; [|intros ?] | apply rd_for; intros ? ? | progress unfold geti, getb, sizen, getn, getv, getm, collect, all_ints, all_flts, all_rows,
            npn, np1, np2, py_index, index_error, linspace, read_modes, radius, default_ymin, np_max
        | apply rd_ret | apply rd_throw | apply rd_ub
        | apply rd_geti; [inK|intros ?] | apply rd_getb | apply rd_getn; [inK|intros ?] | apply rd_sizen; [inK|intros ?]
        | apply rd_geta; [inK|intros ?] | apply rd_dima; [inK|intros ? ?]
        | match goal with |- rd _ _ (if ?b then _ else _) => destruct b end
        | match goal with |- rd _ _ (match ?x with _ => _ end) => destruct x end ].
Lemma rd_surfplot a js nt np : rd (plot_keys a) a (surfplot S js nt np).
Proof. unfold surfplot. destruct a; repeat rd_step. Qed.
Lemma rd_symplot a mm mn ym sq lg B0 rm dt : rd (plot_keys a) a (symplot S mm mn ym sq lg B0 rm dt).
Proof. unfold symplot. destruct a; repeat rd_step. Qed.
Lemma rd_modeplot a as_ nm ym sq lg B0 rm : rd (plot_keys a) a (modeplot S as_ nm ym sq lg B0 rm).
Proof. unfold modeplot. destruct a; repeat rd_step. Qed.
Lemma rd_wireplot a js nt np rf sf : rd (plot_keys a) a (wireplot S js nt np rf sf false).
Proof. unfold wireplot. destruct a; repeat rd_step. Qed.
Lemma rd_wireplot_orig a js nt np rf sf og : rd (plot_keys a ++ orig_keys a) a (wireplot S js nt np rf sf og).
Proof. unfold wireplot. destruct a; repeat rd_step. Qed.

Theorem plots_only_read (o : obj) a : oB o B_asym = Some a ->
  (forall js nt np, leaves (run (surfplot S js nt np) o) o) /\
  (forall mm mn ym sq lg B0 rm dt, leaves (run (symplot S mm mn ym sq lg B0 rm dt) o) o) /\
  (forall as_ nm ym sq lg B0 rm, leaves (run (modeplot S as_ nm ym sq lg B0 rm) o) o) /\
  (forall js nt np rf sf og, leaves (run (wireplot S js nt np rf sf og) o) o).
Proof.
  intros Ha. assert (G : forall K, agree K a o o) by (intros K; constructor; auto).
  assert (X : forall A K (p : prog S A), rd K a p -> leaves (run p o) o).
  { intros A K p H. pose proof (rd_run K a p o o (G K) H) as E. destruct (run p o); cbn in *; tauto. }
  splits; intros; eapply X.
  - apply rd_surfplot.
  - apply rd_symplot.
  - apply rd_modeplot.
  - apply rd_wireplot_orig.
Qed.

(** ** Objects with results *)
Theorem shows_after_run (o : obj) i : after_run o i ->
  shows o (asym i) (nfp i) (mnboz i) (nsurf i) (xm_b i) (xn_b i) (fun b => sin_ i (surf i b)) (fun f k b => o_coef i (surf i b) f k).
Proof.
  intros A. destruct (after_run_holds S o i A) as (O & R & Q & W).
  pose proof (mnboz_fits S i O) as M. pose proof (ok_nboz _ _ O) as Nb. destruct (mode_at0 i 0 ltac:(lia)) as (E1 & E2).
  constructor; try apply R; try apply Q.
  - pose proof (ok_nfp _ _ O). pose proof (ok_nsurf _ _ O). lia.
  - unfold xm_b, xn_b. rewrite E1, E2. auto.
  - intros k _. exists (mode_n i k). unfold xn_b. lia.
Qed.
Theorem shows_after_read (d : bdat S) (o o' : obj) : bsane S d -> loaded S d o o' -> 1 <= b_nfp S d ->
  b_xm S d 0 = 0 -> b_xn S d 0 = 0 -> (forall k, 0 <= k < b_mnboz S d -> (b_nfp S d | b_xn S d k)) ->
  shows o' (b_asym S d) (b_nfp S d) (b_mnboz S d) (b_nsurf S d) (b_xm S d) (b_xn S d)
    (fun j => f1 S / (toF (b_ns S d) - f1 S) * (toF (b_jlist S d j - 2) + flit S (1 # 2)))%sc
    (fun f k b => bsign S f (b_mat S d f k b)).
Proof.
  intros Hs L Hn H1 H2 H3. constructor; try apply L; auto.
  - intros f Hf. unfold outs in Hf. destruct (b_asym S d) eqn:Ea.
    + apply in_app_or in Hf. destruct Hf as [Hf|Hf].
      * cbn in Hf. decompose [or] Hf; subst; try contradiction;
          eapply (ld_sym _ _ _ _ L); cbn; repeat (first [left; reflexivity|right]).
      * assert (X : exists x, In (x, f) bvars_asym).
        { cbn in Hf. decompose [or] Hf; subst; try contradiction; eexists; cbn; repeat (first [left; reflexivity|right]). }
        destruct X as (x & X). pose proof (ld_matA _ _ _ _ L x f X) as Y. now rewrite Ea in Y.
    + cbn in Hf. decompose [or] Hf; subst; try contradiction;
          eapply (ld_sym _ _ _ _ L); cbn; repeat (first [left; reflexivity|right]).
  - pose proof (bs_mnboz _ _ Hs). pose proof (bs_nsurf _ _ Hs). lia.
Qed.

(** ** Plots of files *)
Lemma restored_agree (o o' : obj) i : after_run o i -> restored o i o' -> vmec_grid o i -> agree (plot_keys (asym i)) (asym i) o o'.
Proof.
  intros A T G. destruct (after_run_holds S o i A) as (O & R & Q & W). constructor.
  - pose proof (rs_B _ _ _ T) as E. pose proof (r_asym _ _ _ R) as E'. rewrite E. auto.
  - intros f Hf. symmetry. apply (rs_I _ _ _ T). unfold plot_keys in Hf. rewrite !in_app_iff, !in_map_iff in Hf.
    destruct Hf as [(x & E & Hx)|[(x & E & _)|[E|(x & E & _)]]]; try discriminate;
      [|cbn in E; destruct E as [E|[]]; discriminate E].
    injection E as ->. cbn in Hx |- *. tauto.
  - intros f Hf. symmetry. apply (rs_N _ _ _ T). unfold plot_keys in Hf. rewrite !in_app_iff, !in_map_iff in Hf.
    destruct Hf as [(x & E & _)|[(x & E & Hx)|[E|(x & E & _)]]]; try discriminate;
      [|cbn in E; destruct E as [E|[]]; discriminate E].
    injection E as ->. cbn in Hx |- *. tauto.
  - intros f Hf. symmetry. unfold plot_keys in Hf. rewrite !in_app_iff, !in_map_iff in Hf.
    destruct Hf as [(x & E & _)|[(x & E & _)|[E|(x & E & Hx)]]]; try discriminate.
    + destruct E as [E|[]]. injection E as <-. now apply (rs_s_b _ _ _ T).
    + injection E as ->. unfold outs in Hx. destruct (asym i) eqn:Ea.
      * apply in_app_or in Hx. destruct Hx as [Hx|Hx].
        -- apply (rs_A _ _ _ T). apply in_or_app. now right.
        -- now apply (rs_As _ _ _ T).
      * apply (rs_A _ _ _ T). apply in_or_app. now right.
Qed.
Theorem plot_of_file version x (w : world) i : (forall y : F, fneg S (fneg S y) = y) ->
  writable version (wO w) i -> open_ok w -> lucky S w -> vmec_grid (wO w) i ->
  exists w1, write_boozmn S version x w = IOk tt w1 /\
  (forall js nt np, same_outcome (on_file S x (surfplot S js nt np) w1) (run (surfplot S js nt np) (wO w))) /\
  (forall mm mn ym sq lg B0 rm dt,
     same_outcome (on_file S x (symplot S mm mn ym sq lg B0 rm dt) w1) (run (symplot S mm mn ym sq lg B0 rm dt) (wO w))) /\
  (forall as_ nm ym sq lg B0 rm,
     same_outcome (on_file S x (modeplot S as_ nm ym sq lg B0 rm) w1) (run (modeplot S as_ nm ym sq lg B0 rm) (wO w))) /\
  (forall js nt np rf sf,
     same_outcome (on_file S x (wireplot S js nt np rf sf false) w1) (run (wireplot S js nt np rf sf false) (wO w))).
Proof.
  intros H1 H2 H3 H4 G. destruct (round_trip S version x w i (obj_new S) H1 H2 H3 H4 (fresh_usable S)) as (w1 & w2 & E1 & E2 & T).
  exists w1. split; [exact E1|].
  pose proof (restored_agree _ _ _ (wb_run _ _ _ H2) T G) as Ag.
  assert (X : forall A (p : prog S A), rd (plot_keys (asym i)) (asym i) p -> same_outcome (on_file S x p w1) (run p (wO w))).
  { intros A p Hp. pose proof (rd_run _ _ p _ _ Ag Hp) as E. unfold on_file, ibind, setobj. rewrite E2. unfold lift.
    destruct (run p (wO w)), (run p (wO w2)); cbn in E |- *; try contradiction; intuition subst; eauto. }
  splits; intros; apply X.
  - apply rd_surfplot.
  - apply rd_symplot.
  - apply rd_modeplot.
  - apply rd_wireplot.
Qed.

(** ** modeplot *)
Lemma NoDup_zseq m : forall lo, NoDup (zseq lo m).
Proof. induction m as [|m IH]; intros lo; cbn [zseq]; constructor; auto. rewrite in_zseq. lia. Qed.
Lemma NoDup_left {T} (l l' : list T) : NoDup (l ++ l') -> NoDup l.
Proof.
  induction l as [|x l IH]; intros N; [constructor|]. cbn in N. inversion N; subst. constructor; [|now apply IH].
  intros E. match goal with X : ~ In x _ |- _ => apply X end. apply in_or_app. now left.
Qed.
Section Modeplot.
Variables (o : obj) (a : bool) (nf n c : Z) (ms ns : Z -> Z) (sb : Z -> F) (V : afield -> Z -> Z -> F).
Hypothesis H : shows o a nf n c ms ns sb V.
Hypothesis Hc : 1 <= c.
Variable argsort : list F -> list Z.
Hypothesis Hs : sorts argsort.
Variables (nm : Z) (ym : option F) (sq lg B0 : bool) (rm : option (Z * Z)).

Definition rank (k : Z) : F := fneg S (fabs S (ampl ms ns V rm k (c - 1))).
Theorem modeplot_largest : 0 <= nm <= count B0 n ->
  exists l,
  run (modeplot S argsort nm ym sq lg B0 rm) o =
    ROk (mkPlot S (negb lg) [] (map (fun k => mode_curve c ms ns sb V rm sq lg Cycle (Mode (ms k) (ns k)) k) l)
           (if lg then Some (lower ym n c (V A_bmnc_b)) else None)) o [] /\
  Z.of_nat (List.length l) = nm /\ NoDup l /\ (forall k, In k l -> eligible B0 n k) /\
  (forall k k', In k l -> eligible B0 n k' -> ~ In k' l -> flt S (rank k') (rank k) = false) /\
  (forall p q k k', (p < q)%nat -> nth_error l p = Some k -> nth_error l q = Some k' -> flt S (rank k') (rank k) = false).
Proof.
  intros Hn. destruct (sh_pos _ _ _ _ _ _ _ _ _ H) as (P1 & P2 & P3).
  destruct (modeplot_run o a nf n c ms ns sb V argsort nm ym sq lg B0 rm H Hc Hs) as (X & _).
  exists (shown_modes argsort B0 n c ms ns V rm nm). split; [exact (X Hn)|]. clear X. unfold shown_modes.
  set (keys := map (fun x => fneg S (fabs S (ampl ms ns V rm (mode_at B0 x) (c - 1)))) (upto (count B0 n))).
  destruct (Hs keys) as (Hp & Ho).
  assert (C0 : 0 <= count B0 n) by (unfold count; destruct B0; lia).
  assert (Lk : List.length keys = Z.to_nat (count B0 n)) by (unfold keys; now rewrite map_length, len_upto).
  rewrite Lk, Z2Nat.id in Hp by lia.
  assert (Inj : forall x y, mode_at B0 x = mode_at B0 y -> x = y) by (unfold mode_at; destruct B0; lia).
  assert (Hin : forall x, In x (argsort keys) <-> 0 <= x < count B0 n).
  { intros x. rewrite <- in_upto. split; [apply (Permutation_in _ Hp)|apply (Permutation_in _ (Permutation_sym Hp))]. }
  assert (El : forall k, eligible B0 n k <-> exists x, k = mode_at B0 x /\ 0 <= x < count B0 n).
  { intros k. unfold eligible, mode_at, count. destruct B0.
    - split; [intros (? & _); exists k; split; [reflexivity|lia]|intros (x & -> & ?); split; [lia|discriminate]].
    - split; [intros (? & E); exists (k - 1); specialize (E eq_refl); split; lia|intros (x & -> & ?); split; [lia|intros _; lia]]. }
  assert (Nd : NoDup (argsort keys)).
  { apply (Permutation_NoDup (Permutation_sym Hp)). unfold upto. apply NoDup_zseq. }
  assert (Kv : forall x, 0 <= x < count B0 n -> znth keys x = Some (rank (mode_at B0 x))).
  { intros x Hx. unfold znth. destruct (Z.ltb_spec x 0); [lia|]. unfold keys. now rewrite map_upto_nth by auto. }
  set (m := Z.to_nat nm).
  assert (Lm : (m <= List.length (argsort keys))%nat).
  { rewrite (Permutation_length Hp), len_upto. unfold m. lia. }
  assert (Fn : forall p x, nth_error (firstn m (argsort keys)) p = Some x -> (p < m)%nat /\ nth_error (argsort keys) p = Some x).
  { intros p x E. assert (p < List.length (firstn m (argsort keys)))%nat by (apply nth_error_Some; congruence).
    rewrite firstn_length in *. split; [lia|]. rewrite <- E, <- (firstn_skipn m (argsort keys)) at 1.
    rewrite nth_error_app1; [reflexivity|]. rewrite firstn_length. lia. }
  assert (Ord : forall p q x y, (p < q)%nat -> nth_error (argsort keys) p = Some x -> nth_error (argsort keys) q = Some y ->
     flt S (rank (mode_at B0 y)) (rank (mode_at B0 x)) = false).
  { intros p q x y Hpq E1 E2. eapply (Ho p q x y); eauto; apply Kv; apply Hin; eapply nth_error_In; eauto. }
  splits.
  - rewrite map_length, firstn_length. unfold m in *. lia.
  - apply FinFun.Injective_map_NoDup; [exact Inj|]. rewrite <- (firstn_skipn m (argsort keys)) in Nd. now apply NoDup_left in Nd.
  - intros k Hk. apply in_map_iff in Hk. destruct Hk as (x & <- & Hx). apply El. exists x. split; [reflexivity|].
    apply Hin. rewrite <- (firstn_skipn m (argsort keys)). apply in_or_app. now left.
  - intros k k' Hk He Hk'. apply in_map_iff in Hk. destruct Hk as (x & <- & Hx). apply El in He. destruct He as (y & -> & Hy).
    apply In_nth_error in Hx. destruct Hx as (p & Ep). destruct (Fn _ _ Ep) as (Hpm & Ep').
    apply Hin in Hy. apply In_nth_error in Hy. destruct Hy as (q & Eq).
    apply (Ord p q); auto.
    destruct (Nat.lt_ge_cases p q) as [?|Hq]; [assumption|]. exfalso. apply Hk'. apply in_map.
    apply nth_error_In with (n := q). rewrite <- Eq. rewrite <- (firstn_skipn m (argsort keys)) at 2.
    rewrite nth_error_app1; [reflexivity|]. rewrite firstn_length. lia.
  - intros p q k k' Hpq E1 E2. rewrite nth_error_map in E1, E2.
    destruct (nth_error (firstn m (argsort keys)) p) as [x|] eqn:X1; [|discriminate].
    destruct (nth_error (firstn m (argsort keys)) q) as [y|] eqn:X2; [|discriminate].
    cbn in E1, E2. injection E1 as <-. injection E2 as <-. apply (Ord p q); auto; now apply Fn.
Qed.
Theorem modeplot_too_many : count B0 n < nm -> run (modeplot S argsort nm ym sq lg B0 rm) o = RThrow "IndexError" o [].
Proof. apply (modeplot_run o a nf n c ms ns sb V argsort nm ym sq lg B0 rm H Hc Hs). Qed.
End Modeplot.

(** ** symplot *)
Section Symplot.
Variables (o : obj) (a : bool) (nf n c : Z) (ms ns : Z -> Z) (sb : Z -> F) (V : afield -> Z -> Z -> F).
Hypothesis H : shows o a nf n c ms ns sb V.
Hypothesis Hc : 1 <= c.
Variables (mm mn : Z) (ym : option F) (sq lg B0 : bool) (rm : option (Z * Z)) (dt : bool).

Lemma mode_color_spec m k col : 1 <= nf ->
  mode_color nf mm mn B0 dt m k = Some col <-> selected mm mn B0 nf m k /\ has_color dt nf m k col.
Proof.
  intros Hf. unfold mode_color, selected.
  destruct (Z.ltb_spec mm (Z.abs m)); [split; [discriminate|intros ((? & _) & _); lia]|].
  destruct (Z.ltb_spec (mn * nf) (Z.abs k)); [split; [discriminate|intros ((_ & ? & _) & _); lia]|].
  assert (M : forall z, z * nf = nf * z) by (intros; lia).
  destruct (Z.eqb_spec k 0) as [->|Hk].
  - destruct (Z.eqb_spec m 0) as [->|Hm].
    + destruct B0.
      * split; [intros E; injection E as <-; splits; cbn; auto; lia|].
        intros (_ & E). destruct col; cbn in E; try reflexivity; lia.
      * split; [discriminate|]. intros ((_ & _ & X) & _). exfalso. now apply X.
    + split; [intros E; injection E as <-; splits; cbn; auto; lia|].
      intros (_ & E). destruct col; cbn in E; try reflexivity; try lia; nia.
  - destruct (Z.eqb_spec m 0) as [->|Hm].
    + split; [intros E; injection E as <-; splits; cbn; auto; lia|].
      intros (_ & E). destruct col; cbn in E; try reflexivity; lia.
    + destruct dt.
      * destruct (Z.eqb_spec k (m * nf)) as [E1|E1].
        { split; [intros E; injection E as <-; splits; cbn; auto; lia|].
          intros (_ & E). destruct col; cbn in E; try reflexivity; exfalso; try lia; try nia; try (destruct E as (_ & _ & E); specialize (E eq_refl); lia). }
        destruct (Z.eqb_spec k (- m * nf)) as [E2|E2].
        { split; [intros E; injection E as <-; splits; cbn; auto; try lia; splits; auto; lia|].
          intros (_ & E). destruct col; cbn in E; try reflexivity; exfalso; try lia; try nia; try (destruct E as (_ & _ & E); specialize (E eq_refl); lia). }
        split; [intros E; injection E as <-; splits; cbn; auto; try lia; splits; auto; lia|].
        intros (_ & E). destruct col; cbn in E; try reflexivity; exfalso; try lia; nia.
      * split; [intros E; injection E as <-; splits; cbn; auto; try lia; splits; auto; discriminate|].
        intros (_ & E). destruct col; cbn in E; try reflexivity; exfalso; try lia; destruct E as (E & _); discriminate.
Qed.
Lemma sorted_pick (g : Z -> option color) : forall m lo,
  let l := flat_map (fun k => match g k with Some col => [(k, col)] | None => [] end) (zseq lo m) in
  StronglySorted Z.lt (map fst l) /\ Forall (fun k => lo <= k) (map fst l).
Proof.
  induction m as [|m IH]; intros lo; cbn [zseq flat_map]; [split; constructor|].
  destruct (IH (lo + 1)) as (S1 & S2). cbv zeta in *.
  set (rest := flat_map _ (zseq (lo + 1) m)) in *. rewrite map_app.
  assert (Forall (fun k => lo <= k) (map fst rest)) by (eapply Forall_impl; [|exact S2]; cbn; intros; lia).
  destruct (g lo); cbn [map app]; [|auto]. split.
  - constructor; [auto|]. eapply Forall_impl; [|exact S2]. cbn. intros. lia.
  - constructor; [cbn; lia|auto].
Qed.
Theorem symplot_modes : exists pl l,
  run (symplot S mm mn ym sq lg B0 rm dt) o = ROk pl o [] /\
  pl_zero S pl = negb lg /\ pl_ymin S pl = (if lg then Some (lower ym n c (ampl ms ns V rm)) else None) /\
  pl_curves S pl = map (fun p => mode_curve c ms ns sb V rm sq lg (snd p) NoLabel (fst p)) l /\
  StronglySorted Z.lt (map fst l) /\
  (forall k col, In (k, col) l <-> 0 <= k < n /\ selected mm mn B0 nf (ms k) (ns k) /\ has_color dt nf (ms k) (ns k) col).
Proof.
  destruct (sh_pos _ _ _ _ _ _ _ _ _ H) as (P1 & P2 & P3).
  pose proof (y_symplot o a nf n c ms ns sb V mm mn ym sq lg B0 rm dt H Hc) as Y. cbv zeta in Y.
  eexists; exists (flat_map (fun k => match mode_color nf mm mn B0 dt (ms k) (ns k) with Some col => [(k, col)] | None => [] end) (upto n)).
  split; [exact Y|]. cbn [pl_zero pl_ymin pl_curves]. splits; auto.
  - clear Y. induction (upto n) as [|k l IH]; cbn [flat_map map]; [reflexivity|]. rewrite map_app, IH. f_equal.
    now destruct (mode_color nf mm mn B0 dt (ms k) (ns k)).
  - apply (sorted_pick (fun k => mode_color nf mm mn B0 dt (ms k) (ns k)) (Z.to_nat n) 0).
  - intros k col. rewrite in_flat_map, <- mode_color_spec by auto. split.
    + intros (x & Hx & E). apply in_upto in Hx. destruct (mode_color nf mm mn B0 dt (ms x) (ns x)) eqn:Ex; [|contradiction].
      destruct E as [E|[]]. injection E as -> ->. auto.
    + intros (Hk & E). exists k. split; [now apply in_upto|]. rewrite E. now left.
Qed.

(** The legend *)
Definition is_first (p : Z -> Z -> Prop) (k : Z) : Prop :=
  0 <= k < n /\ p (ms k) (ns k) /\ forall k', 0 <= k' < k -> ~ p (ms k') (ns k').
Lemma find_map {A B} (f : A -> B) p l : find p (map f l) = option_map f (find (fun x => p (f x)) l).
Proof. induction l as [|x l IH]; cbn; [reflexivity|]. destruct (p (f x)); auto. Qed.
Lemma find_zseq p : forall m lo,
  match find p (zseq lo m) with
  | Some k => lo <= k < lo + Z.of_nat m /\ p k = true /\ forall k', lo <= k' < k -> p k' = false
  | None => forall k, lo <= k < lo + Z.of_nat m -> p k = false
  end.
Proof.
  induction m as [|m IH]; intros lo; cbn [zseq find]; [lia|].
  destruct (p lo) eqn:E; [splits; auto; lia|]. specialize (IH (lo + 1)).
  destruct (find p (zseq (lo + 1) m)) as [k|].
  - destruct IH as (I1 & I2 & I3). splits; auto; try lia. intros k' Hk. destruct (Z.eq_dec k' lo) as [->|]; auto. apply I3. lia.
  - intros k Hk. destruct (Z.eq_dec k lo) as [->|]; auto. apply IH. lia.
Qed.
Definition rows := map (fun k => (ms k, ns k, map (ampl ms ns V rm k) (upto c))) (upto n).
Definition rad := map (fun b => if sq then fsqrt S (sb b) else sb b) (upto c).
Lemma first_spec (p : Z -> Z -> bool) col s :
  (exists k, is_first (fun m k => p m k = true) k /\ first_of S rad lg rows p col s = [mode_curve c ms ns sb V rm sq lg col (Text s) k]) \/
  ((forall k, 0 <= k < n -> p (ms k) (ns k) = false) /\ first_of S rad lg rows p col s = []).
Proof.
  unfold first_of, rows. rewrite find_map. cbn [fst snd]. pose proof (find_zseq (fun k => p (ms k) (ns k)) (Z.to_nat n) 0) as X.
  fold (upto n) in X. destruct (find (fun k => p (ms k) (ns k)) (upto n)) as [k|]; cbn [option_map].
  - left. exists k. destruct X as (X1 & X2 & X3). split; [split; [lia|split; [exact X2|intros k' Hk' E; rewrite X3 in E by auto; discriminate]]|].
    now rewrite abs_row.
  - right. split; [|reflexivity]. intros k Hk. apply X. lia.
Qed.
Definition part (q : Z -> Z -> Prop) (col : color) (l : list (curve S)) : Prop :=
  (exists k, is_first q k /\ l = [mode_curve c ms ns sb V rm sq lg col (Text (legend_text dt col)) k]) \/
  ((forall k, 0 <= k < n -> ~ q (ms k) (ns k)) /\ l = []).
Lemma first_part (p : Z -> Z -> bool) (q : Z -> Z -> Prop) col s : s = legend_text dt col -> (forall m k, p m k = true <-> q m k) ->
  part q col (first_of S rad lg rows p col s).
Proof.
  intros -> E. destruct (first_spec p col (legend_text dt col)) as [(k & (F1 & F2 & F3) & ->)|(N & ->)].
  - left. exists k. split; [|reflexivity]. split; [lia|]. split; [now apply E|]. intros k' Hk' Q. apply (F3 k' Hk'). now apply E.
  - right. split; [|reflexivity]. intros k Hk Q. apply E in Q. rewrite N in Q by auto. discriminate.
Qed.
Lemma part_in q col l cv : part q col l -> In cv l ->
  exists k, is_first q k /\ cv = mode_curve c ms ns sb V rm sq lg col (Text (legend_text dt col)) k.
Proof. intros [(k & Hk & ->)|(_ & ->)] I; [|contradiction]. destruct I as [<-|[]]. eauto. Qed.
Lemma part_has (q : Z -> Z -> Prop) col l k : part q col l -> 0 <= k < n -> q (ms k) (ns k) -> exists cv, In cv l /\ cv_color S cv = col.
Proof.
  intros [(k' & _ & ->)|(N & _)] Hk Q; [|destruct (N k Hk Q)]. eexists. split; [now left|reflexivity].
Qed.
Lemma part_cols q col l : part q col l -> map (cv_color S) l = [col] \/ map (cv_color S) l = [].
Proof. intros [(k' & _ & ->)|(_ & ->)]; auto. Qed.

(** The helical modes that have an entry of their own colour in the legend *)
Definition legend_helical (m k : Z) : Prop := m <> 0 /\ k <> 0 /\ (dt = false -> k <> nf * m /\ k <> - nf * m).
Definition legend_class (col : color) (m k : Z) : Prop :=
  match col with Helical => legend_helical m k | Background => B0 = true /\ m = 0 /\ k = 0 | _ => has_color dt nf m k col end.
Theorem symplot_legend : exists pl, run (symplot S mm mn ym sq lg B0 rm dt) o = ROk pl o [] /\
  NoDup (map (cv_color S) (pl_legend S pl)) /\
  (forall cv, In cv (pl_legend S pl) -> exists k, is_first (legend_class (cv_color S cv)) k /\
     cv = mode_curve c ms ns sb V rm sq lg (cv_color S cv) (Text (legend_text dt (cv_color S cv))) k) /\
  (forall col k, 0 <= k < n -> legend_class col (ms k) (ns k) -> exists cv, In cv (pl_legend S pl) /\ cv_color S cv = col).
Proof.
  destruct (sh_pos _ _ _ _ _ _ _ _ _ H) as (P1 & P2 & P3).
  pose proof (y_symplot o a nf n c ms ns sb V mm mn ym sq lg B0 rm dt H Hc) as Y. cbv zeta in Y.
  eexists. split; [exact Y|]. clear Y. cbn [pl_legend]. fold rows rad. unfold legend.
  set (l1 := if B0 then _ else []).
  match goal with |- context [first_of S rad lg rows ?p QA ?s] => set (l2 := first_of S rad lg rows p QA s) end.
  match goal with |- context [first_of S rad lg rows ?p Mirror ?s] => set (l3 := first_of S rad lg rows p Mirror s) end.
  set (l4 := if dt then first_of S rad lg rows (fun m k => (k =? m * nf) && negb (m =? 0)) HelicalPlus "n = nfp m (Helical)" else []).
  set (l5 := if dt then first_of S rad lg rows (fun m k => (k =? - m * nf) && negb (m =? 0)) HelicalMinus "n = -nfp m (Helical)" else []).
  set (l6 := if dt then first_of S rad lg rows (fun m k => negb (k =? 0) && negb (m =? 0)) Helical "Other helical"
             else first_of S rad lg rows (fun m n => negb (n =? 0) && negb (m =? 0) && negb (n =? m * nf) && negb (n =? - m * nf))
                    Helical "m != 0, n != 0 (Helical)").
  match goal with |- context [l1 ++ l2 ++ l3 ++ ?x] => replace x with (l4 ++ l5 ++ l6) by (unfold l4, l5, l6; destruct dt; reflexivity) end.
  assert (A1 : part (legend_class Background) Background l1).
  { unfold l1. unfold legend_class. destruct B0.
    - apply first_part; [reflexivity|]. intros m k. rewrite ?andb_true_iff, ?negb_true_iff, ?Z.eqb_eq, ?Z.eqb_neq; intuition (try congruence).
    - right. split; [|reflexivity]. intros k Hk (E & _). discriminate. }
  assert (A2 : part (legend_class QA) QA l2).
  { apply first_part; [reflexivity|]. intros m k. cbn. rewrite ?andb_true_iff, ?negb_true_iff, ?Z.eqb_eq, ?Z.eqb_neq; intuition (try congruence). }
  assert (A3 : part (legend_class Mirror) Mirror l3).
  { apply first_part; [reflexivity|]. intros m k. cbn. rewrite ?andb_true_iff, ?negb_true_iff, ?Z.eqb_eq, ?Z.eqb_neq; intuition (try congruence). }
  assert (A4 : part (legend_class HelicalPlus) HelicalPlus l4).
  { unfold l4. destruct dt eqn:Ed.
    - apply first_part; [reflexivity|]. intros m k. cbn. rewrite Ed. rewrite (Z.mul_comm m nf). rewrite ?andb_true_iff, ?negb_true_iff, ?Z.eqb_eq, ?Z.eqb_neq; intuition (try congruence).
    - right. split; [|reflexivity]. cbn. rewrite Ed. intros k Hk (E & _). discriminate. }
  assert (A5 : part (legend_class HelicalMinus) HelicalMinus l5).
  { unfold l5. destruct dt eqn:Ed.
    - apply first_part; [reflexivity|]. intros m k. cbn. rewrite Ed.
      destruct (Z.eqb_spec k (- m * nf)), (Z.eqb_spec m 0); cbn; split; try discriminate; try (intros; splits; auto; nia); intros (_ & X & Y & _); try lia; nia.
    - right. split; [|reflexivity]. cbn. rewrite Ed. intros k Hk (E & _). discriminate. }
  assert (A6 : part (legend_class Helical) Helical l6).
  { unfold l6. destruct dt eqn:Ed.
    - apply first_part; [now rewrite Ed|]. intros m k. cbn. unfold legend_helical. rewrite Ed. rewrite ?andb_true_iff, ?negb_true_iff, ?Z.eqb_eq, ?Z.eqb_neq; intuition (try congruence).
    - apply first_part; [now rewrite Ed|]. intros m k. cbn. unfold legend_helical.
      replace (- m * nf) with (- nf * m) by lia. rewrite (Z.mul_comm m nf). rewrite Ed.
      rewrite ?andb_true_iff, ?negb_true_iff, ?Z.eqb_eq, ?Z.eqb_neq; intuition (try congruence). }
  splits.
  - rewrite !map_app.
    destruct (part_cols _ _ _ A1) as [-> | ->], (part_cols _ _ _ A2) as [-> | ->], (part_cols _ _ _ A3) as [-> | ->],
      (part_cols _ _ _ A4) as [-> | ->], (part_cols _ _ _ A5) as [-> | ->], (part_cols _ _ _ A6) as [-> | ->];
      cbn [app]; repeat (constructor; [cbn; intuition discriminate|]); constructor.
  - intros cv I. rewrite !in_app_iff in I.
    destruct I as [I|[I|[I|[I|[I|I]]]]];
      (eapply part_in in I; [|eassumption]); destruct I as (k & F & ->); exists k; split; auto.
  - intros col k Hk Q.
    assert (X : exists cv, (In cv l1 \/ In cv l2 \/ In cv l3 \/ In cv l4 \/ In cv l5 \/ In cv l6) /\ cv_color S cv = col).
    { destruct col; try contradiction;
        [destruct (part_has _ _ _ k A1 Hk Q) as (cv & I & E)|destruct (part_has _ _ _ k A2 Hk Q) as (cv & I & E)
        |destruct (part_has _ _ _ k A3 Hk Q) as (cv & I & E)|destruct (part_has _ _ _ k A6 Hk Q) as (cv & I & E)
        |destruct (part_has _ _ _ k A4 Hk Q) as (cv & I & E)|destruct (part_has _ _ _ k A5 Hk Q) as (cv & I & E)];
        exists cv; tauto. }
    destruct X as (cv & I & E). exists cv. rewrite !in_app_iff. auto.
Qed.
End Symplot.
End PlotThms.

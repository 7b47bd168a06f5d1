(** What the functions of plots.py return, for any arithmetic. *)
From Coq Require Import ZArith QArith List String Bool Lia Permutation.
From Verif Require Import Scalar Prog Wp Func Step TrigProof RunProof FuncExt Spec RunThms Plots PlotSpec.
Import ListNotations.
Local Open Scope Z_scope.

Lemma zrange_zseq lo n : zrange lo n = zseq lo n.
Proof. revert lo. induction n; intros lo; cbn; [reflexivity|]. now rewrite IHn. Qed.
Lemma upto_succ k : 0 <= k -> upto (k + 1) = upto k ++ [k].
Proof.
  intros H. unfold upto. replace (Z.to_nat (k + 1)) with (Datatypes.S (Z.to_nat k)) by lia.
  rewrite zseq_succ. now rewrite Z2Nat.id by lia.
Qed.
Lemma in_upto n k : In k (upto n) <-> 0 <= k < n.
Proof. unfold upto. rewrite in_zseq. lia. Qed.
Lemma len_upto n : List.length (upto n) = Z.to_nat n.
Proof. apply zseq_len. Qed.
Lemma map_upto_ext {T} n (g h : Z -> T) : (forall k, 0 <= k < n -> g k = h k) -> map g (upto n) = map h (upto n).
Proof. intros H. apply map_ext_in. intros k Hk. apply H. now apply in_upto. Qed.
Lemma upto_nth n k : 0 <= k < n -> nth_error (upto n) (Z.to_nat k) = Some k.
Proof. intros H. unfold upto. rewrite zseq_nth by lia. f_equal. lia. Qed.
Lemma map_upto_nth {T} n (g : Z -> T) k : 0 <= k < n -> nth_error (map g (upto n)) (Z.to_nat k) = Some (g k).
Proof. intros H. rewrite nth_error_map, upto_nth by auto. reflexivity. Qed.
Lemma combine_map {A B C} (g : A -> B) (h : A -> C) l : combine (map g l) (map h l) = map (fun x => (g x, h x)) l.
Proof. induction l; cbn; [reflexivity|]. now rewrite IHl. Qed.
Lemma flat_map_of_map {A B C} (f : B -> list C) (g : A -> B) l : flat_map f (map g l) = flat_map (fun x => f (g x)) l.
Proof. induction l; cbn; [reflexivity|]. now rewrite IHl. Qed.
Lemma upto_pos n : 1 <= n -> upto n = 0 :: tl (upto n).
Proof.
  intros H. unfold upto. replace (Z.to_nat n) with (Datatypes.S (Z.to_nat (n - 1))) by lia. reflexivity.
Qed.
Lemma tl_upto n : 1 <= n -> tl (upto n) = map (fun k => k + 1) (upto (n - 1)).
Proof.
  intros H. unfold upto. replace (Z.to_nat n) with (Datatypes.S (Z.to_nat (n - 1))) by lia. cbn [zseq tl].
  generalize (Z.to_nat (n - 1)). intros m. change (0 + 1) with 1. 
  assert (X : forall lo, zseq (lo + 1) m = map (fun k => k + 1) (zseq lo m)).
  { induction m; intros lo; cbn; [reflexivity|]. now rewrite IHm. }
  apply (X 0).
Qed.

Section PlotProof.
Context {S : Scalar}.
Notation obj := (obj S).
Notation F := (F S).
Notation prog := (prog S).
Notation toF := (fofZ S).

(** Programs that only read *)
Definition yields {A} (p : prog A) (o : obj) (a : A) : Prop := run p o = ROk a o [].

Lemma y_ret {A} (a : A) o : yields (Ret a) o a.
Proof. reflexivity. Qed.
Lemma y_bind {A B} (p : prog A) (k : A -> prog B) o a b : yields p o a -> yields (k a) o b -> yields (bind p k) o b.
Proof. unfold yields. intros H1 H2. rewrite bind_run, H1, H2. reflexivity. Qed.
Lemma y_geti f o v : oI o f = Some v -> yields (geti f) o v.
Proof. intros H. unfold yields, geti. cbn. now rewrite H. Qed.
Lemma y_getb f o v : oB o f = Some v -> yields (getb f) o v.
Proof. intros H. unfold yields, getb. cbn. now rewrite H. Qed.
Lemma y_sizen f o n g : vec_is (oN o f) n g -> yields (sizen f) o n.
Proof. intros H. unfold yields, sizen. cbn. now rewrite (vec_is_asize _ _ _ H). Qed.
Lemma y_getn f o n g k : vec_is (oN o f) n g -> 0 <= k < n -> yields (getn f k) o (g k).
Proof. intros (_ & _ & _ & H) Hk. unfold yields, getn. cbn. now rewrite H by auto. Qed.
Lemma y_getv f o n g k : vec_is (oA o f) n g -> 0 <= k < n -> yields (getv f k) o (g k).
Proof. intros (_ & _ & _ & H) Hk. unfold yields, getv. cbn. now rewrite H by auto. Qed.
Lemma y_getm f o r c g k j : mat_is (oA o f) r c g -> 0 <= k < r -> 0 <= j < c -> yields (getm f k j) o (g k j).
Proof.
  intros (_ & _ & E1 & E2 & _ & H) Hk Hj. unfold yields, getm. cbn. rewrite E1, E2, inside_true by auto. cbn. now rewrite H by auto.
Qed.
Lemma y_dimv {A} f o n g (k : Z -> Z -> prog A) a : vec_is (oA o f) n g -> yields (k n 1) o a -> yields (DimA f k) o a.
Proof. intros (E1 & E2 & _) H. unfold yields. cbn. now rewrite E1, E2. Qed.
Lemma y_dimm {A} f o r c g (k : Z -> Z -> prog A) a : mat_is (oA o f) r c g -> yields (k r c) o a -> yields (DimA f k) o a.
Proof. intros (_ & _ & E1 & E2 & _) H. unfold yields. cbn. now rewrite E1, E2. Qed.

Lemma wrap_ok c js : - c <= js < c -> 0 <= wrap c js < c.
Proof. unfold wrap. destruct (Z.ltb_spec js 0); lia. Qed.
Lemma wrap_id c k : 0 <= k < c -> wrap c k = k.
Proof. intros H. unfold wrap. destruct (Z.ltb_spec k 0); lia. Qed.
Lemma y_index o c js : - c <= js < c -> yields (py_index S c js) o (wrap c js).
Proof.
  intros H. unfold py_index. fold (wrap c js). pose proof (wrap_ok c js H).
  cbv zeta. replace ((0 <=? wrap c js) && (wrap c js <? c)) with true; [apply y_ret|].
  symmetry. apply andb_true_intro. split; [apply Z.leb_le|apply Z.ltb_lt]; lia.
Qed.
Lemma y_index0 o c k : 0 <= k < c -> yields (py_index S c k) o k.
Proof. intros H. pose proof (y_index o c k ltac:(lia)) as X. now rewrite wrap_id in X. Qed.
Lemma y_npn f o n g k : vec_is (oN o f) n g -> 0 <= k < n -> yields (npn S f k) o (g k).
Proof. intros V H. eapply y_bind; [eapply y_sizen; eauto|]. eapply y_bind; [apply y_index0; eauto|]. eapply y_getn; eauto. Qed.
Lemma y_np1 f o n g j : vec_is (oA o f) n g -> - n <= j < n -> yields (np1 S f j) o (g (wrap n j)).
Proof.
  intros V H. eapply y_dimv; [eauto|]. rewrite Z.mul_1_r. eapply y_bind; [apply y_index; eauto|].
  eapply y_getv; [eauto|]. now apply wrap_ok.
Qed.
Lemma y_np2 f o r c g k j : mat_is (oA o f) r c g -> 0 <= k < r -> - c <= j < c -> yields (np2 S f k j) o (g k (wrap c j)).
Proof.
  intros V Hk H. eapply y_dimm; [eauto|]. eapply y_bind; [apply y_index0; eauto|]. eapply y_bind; [apply y_index; eauto|].
  eapply y_getm; [eauto|auto|]. now apply wrap_ok.
Qed.

Lemma y_for {St} (body : Z -> St -> prog St) (g : Z -> St) o n st : 0 <= n -> st = g 0 ->
  (forall k, 0 <= k < n -> yields (body k (g k)) o (g (k + 1))) -> yields (for_ 0 n st body) o (g n).
Proof.
  intros Hn -> H. unfold for_. rewrite Z.sub_0_r.
  assert (X : forall m lo, 0 <= lo -> lo + Z.of_nat m = n -> yields (for_from m lo (g lo) body) o (g n)).
  { induction m as [|m IH]; intros lo Hlo E; cbn [for_from].
    - replace n with lo by lia. apply y_ret.
    - eapply y_bind; [apply H; lia|]. apply IH; lia. }
  apply (X _ 0); lia.
Qed.
Lemma y_collect {T} n (g : Z -> prog T) (h : Z -> T) o : 0 <= n ->
  (forall k, 0 <= k < n -> yields (g k) o (h k)) -> yields (collect S n g) o (map h (upto n)).
Proof.
  intros Hn H. unfold collect. apply (y_for _ (fun k => map h (upto k))); [auto|reflexivity|].
  intros k Hk. eapply y_bind; [apply H; auto|]. rewrite upto_succ, map_app by lia. apply y_ret.
Qed.
Lemma y_ints f o n g : 0 <= n -> vec_is (oN o f) n g -> yields (all_ints S f) o (map g (upto n)).
Proof. intros Hn V. eapply y_bind; [eapply y_sizen; eauto|]. apply y_collect; auto. intros. eapply y_getn; eauto. Qed.
Lemma y_flts f o n g : 0 <= n -> vec_is (oA o f) n g -> yields (all_flts S f) o (map g (upto n)).
Proof.
  intros Hn V. eapply y_dimv; [eauto|]. rewrite Z.mul_1_r. apply y_collect; auto. intros. eapply y_getv; eauto.
Qed.
Lemma y_rows f o r c g : mat_is (oA o f) r c g ->
  yields (all_rows S f) o (map (fun k => map (g k) (upto c)) (upto r)).
Proof.
  intros M. pose proof M as (H1 & H2 & _). eapply y_dimm; [eauto|]. apply y_collect; auto. intros k Hk.
  apply y_collect; auto. intros. eapply y_getm; eauto.
Qed.

(** Grids *)
Definition grid {T} (a b : list F) (v : F -> F -> T) : list (list (F * F * T)) :=
  map (fun t => map (fun p => (t, p, v t p)) b) a.
Lemma mesh_grid {T} a b (v : T) : mesh S a b v = grid a b (fun _ _ => v).
Proof. reflexivity. Qed.
Lemma upd_grid {T U} (g : F -> F -> T -> U) a b v : upd S g (grid a b v) = grid a b (fun t p => g t p (v t p)).
Proof.
  unfold upd, grid. rewrite map_map. apply map_ext. intros t. rewrite map_map. reflexivity.
Qed.
Lemma grid_ext {T} a b (v v' : F -> F -> T) : (forall t p, v t p = v' t p) -> grid a b v = grid a b v'.
Proof. intros H. apply map_ext. intros t. apply map_ext. intros p. now rewrite H. Qed.

Definition points (stop : F) (n : Z) : list F :=
  let delta := fsub S stop (toF 0) in
  let step := if 1 <? n then fdiv S delta (toF (n - 1)) else delta in
  map (fun k => if (1 <? n) && (k =? n - 1) then stop else fadd S (fmul S (toF k) step) (toF 0)) (upto n).
Lemma y_linspace stop n o : 0 <= n -> yields (linspace S stop n) o (points stop n).
Proof.
  intros H. unfold linspace, points, upto. destruct (Z.ltb_spec n 0); [lia|]. rewrite zrange_zseq. apply y_ret.
Qed.
Lemma len_points stop n : List.length (points stop n) = Z.to_nat n.
Proof. unfold points. now rewrite map_length, len_upto. Qed.

(** ** surfplot *)
Definition bsum (a : bool) (ms ns : Z -> Z) (bc bs : Z -> F) (n : Z) (t p : F) : F :=
  accum n (fun k acc =>
    let x := fadd S acc (fmul S (bc k) (fcos S (angle S (ms k) (ns k) t p))) in
    if a then fadd S x (fmul S (bs k) (fsin S (angle S (ms k) (ns k) t p))) else x) (toF 0).

Lemma surfplot_yields o a nf n c ms ns sb V js nt np :
  shows o a nf n c ms ns sb V -> - c <= js < c -> 0 <= nt -> 0 <= np ->
  yields (surfplot S js nt np) o
    (grid (points (two_pi S) nt) (points (fdiv S (two_pi S) (toF nf)) np)
       (bsum a ms ns (fun k => V A_bmnc_b k (wrap c js)) (fun k => V A_bmns_b k (wrap c js)) n), sb (wrap c js)).
Proof.
  intros H Hj Ht Hp. destruct (sh_pos _ _ _ _ _ _ _ _ _ H) as (P1 & P2 & P3). unfold surfplot.
  eapply y_bind; [apply y_linspace; auto|]. eapply y_bind; [apply y_geti, (sh_nfp _ _ _ _ _ _ _ _ _ H)|].
  destruct (Z.eqb_spec nf 0); [lia|]. eapply y_bind; [apply y_linspace; auto|].
  eapply y_bind; [eapply y_sizen, (sh_xm _ _ _ _ _ _ _ _ _ H)|].
  eapply y_bind; [|eapply y_bind; [eapply y_np1; [apply (sh_s _ _ _ _ _ _ _ _ _ H)|auto]|apply y_ret]].
  rewrite mesh_grid.
  apply (y_for _ (fun k => grid _ _ (bsum a ms ns (fun k => V A_bmnc_b k (wrap c js)) (fun k => V A_bmns_b k (wrap c js)) k)));
    [lia|reflexivity|].
  intros k Hk.
  eapply y_bind; [eapply y_npn; [apply (sh_xm _ _ _ _ _ _ _ _ _ H)|lia]|].
  eapply y_bind; [eapply y_npn; [apply (sh_xn _ _ _ _ _ _ _ _ _ H)|lia]|].
  eapply y_bind; [eapply y_np2; [apply (sh_V _ _ _ _ _ _ _ _ _ H); destruct a; cbn; tauto|lia|lia]|].
  eapply y_bind; [apply y_getb, (sh_asym _ _ _ _ _ _ _ _ _ H)|].
  destruct a.
  - eapply y_bind; [eapply y_np2; [apply (sh_V _ _ _ _ _ _ _ _ _ H); cbn; tauto|lia|lia]|].
    rewrite !upd_grid. erewrite grid_ext; [apply y_ret|]. intros t p. unfold bsum. now rewrite accum_succ by lia.
  - rewrite !upd_grid. erewrite grid_ext; [apply y_ret|]. intros t p. unfold bsum. now rewrite accum_succ by lia.
Qed.

(** ** The mode table *)
Lemma y_modes o a nf n c ms ns sb V : shows o a nf n c ms ns sb V ->
  yields (read_modes S) o (map (fun k => (ms k, ns k)) (upto n), map (fun k => map (V A_bmnc_b k) (upto c)) (upto n)).
Proof.
  intros H. destruct (sh_pos _ _ _ _ _ _ _ _ _ H) as (P1 & P2 & P3). unfold read_modes.
  eapply y_bind; [eapply y_ints; [|apply (sh_xm _ _ _ _ _ _ _ _ _ H)]; lia|].
  eapply y_bind; [eapply y_ints; [|apply (sh_xn _ _ _ _ _ _ _ _ _ H)]; lia|].
  eapply y_bind; [eapply y_rows, (sh_V _ _ _ _ _ _ _ _ _ H); destruct a; cbn; tauto|].
  rewrite !map_length, !Nat.eqb_refl, combine_map. apply y_ret.
Qed.
Lemma without_rows rm n c (ms ns : Z -> Z) (V : afield -> Z -> Z -> F) :
  without S rm (map (fun k => (ms k, ns k)) (upto n)) (map (fun k => map (V A_bmnc_b k) (upto c)) (upto n)) =
  map (fun k => map (ampl ms ns V rm k) (upto c)) (upto n).
Proof.
  unfold without, ampl, removed. destruct rm as [[hm hn]|]; [|reflexivity].
  rewrite combine_map, map_map. apply map_ext. intros k. destruct (hn * ms k =? hm * ns k); [|reflexivity].
  now rewrite map_map.
Qed.
Lemma y_radius o a nf n c ms ns sb V sq : shows o a nf n c ms ns sb V ->
  yields (radius S sq) o (map (fun b => if sq then fsqrt S (sb b) else sb b) (upto c)).
Proof.
  intros H. destruct (sh_pos _ _ _ _ _ _ _ _ _ H) as (P1 & P2 & P3). unfold radius.
  eapply y_bind; [eapply y_flts; [|apply (sh_s _ _ _ _ _ _ _ _ _ H)]; lia|].
  eapply y_dimm; [apply (sh_V _ _ _ _ _ _ _ _ _ H); destruct a; cbn; tauto|].
  rewrite map_length, len_upto, Z2Nat.id, Z.eqb_refl by lia.
  destruct sq; [rewrite map_map|]; apply y_ret.
Qed.
Lemma y_ymin o ym n c (g : Z -> Z -> F) : 1 <= n -> 1 <= c ->
  yields (default_ymin S ym (map (fun k => map (g k) (upto c)) (upto n))) o (lower ym n c g).
Proof.
  intros Hn Hc. unfold default_ymin, lower, largest. destruct ym as [y|]; [apply y_ret|].
  eapply y_bind; [|apply y_ret]. unfold np_max. rewrite (upto_pos n), (upto_pos c) by auto. cbn. apply y_ret.
Qed.
Lemma abs_row log (h : Z -> F) l : my_abs S log (map h l) = map (fun b => if log then fabs S (h b) else h b) l.
Proof. unfold my_abs. destruct log; [|reflexivity]. now rewrite map_map. Qed.

(** ** modeplot *)
(** Position x among the eligible modes *)
Definition mode_at (B0 : bool) (x : Z) : Z := if B0 then x else x + 1.
Lemma el_rows {T} (B0 : bool) n (g : Z -> T) : 1 <= n ->
  (if B0 then map g (upto n) else tl (map g (upto n))) = map (fun x => g (mode_at B0 x)) (upto (count B0 n)).
Proof.
  intros H. destruct B0; [reflexivity|]. unfold mode_at, count.
  rewrite (upto_pos n) at 1 by auto. cbn. rewrite tl_upto by auto. now rewrite map_map.
Qed.
Lemma nth_map_upto {T} n (g : Z -> T) k d : 0 <= k < n -> nth (Z.to_nat k) (map g (upto n)) d = g k.
Proof. intros H. apply nth_error_nth. now apply map_upto_nth. Qed.

Definition shown_modes (argsort : list F -> list Z) B0 n c ms ns V rm nm : list Z :=
  map (mode_at B0) (firstn (Z.to_nat nm) (argsort (map (fun x => fneg S (fabs S (ampl ms ns V rm (mode_at B0 x) (c - 1)))) (upto (count B0 n))))).

Lemma modeplot_run o a nf n c ms ns sb V argsort nm (ym : option F) (sq lg B0 : bool) rm :
  shows o a nf n c ms ns sb V -> 1 <= c -> sorts argsort -> 
  let y := lower ym n c (V A_bmnc_b) in
  (0 <= nm <= count B0 n ->
   yields (modeplot S argsort nm ym sq lg B0 rm) o
    (mkPlot S (negb lg) [] (map (fun k => mode_curve c ms ns sb V rm sq lg Cycle (Mode (ms k) (ns k)) k)
       (shown_modes argsort B0 n c ms ns V rm nm)) (if lg then Some y else None))) /\
  (count B0 n < nm -> run (modeplot S argsort nm ym sq lg B0 rm) o = RThrow "IndexError" o []).
Proof.
  intros H Hc Hs. destruct (sh_pos _ _ _ _ _ _ _ _ _ H) as (P1 & P2 & P3).
  pose proof (y_ymin o ym n c (V A_bmnc_b) P2 Hc) as Ey. intros y. fold y in Ey.
  set (keys := map (fun x => fneg S (fabs S (ampl ms ns V rm (mode_at B0 x) (c - 1)))) (upto (count B0 n))).
  set (g := fun jm => let x := nth (Z.to_nat jm) (firstn (Z.to_nat nm) (argsort keys)) 0 in mode_at B0 x).
  set (cv := fun k => mode_curve c ms ns sb V rm sq lg Cycle (Mode (ms k) (ns k)) k).
  destruct (Hs keys) as (Hp & _). pose proof (Permutation_length Hp) as Hl. rewrite len_upto, Nat2Z.id in Hl.
  assert (Lk : List.length keys = Z.to_nat (count B0 n)) by (unfold keys; now rewrite map_length, len_upto).
  assert (C0 : 0 <= count B0 n) by (unfold count; destruct B0; lia).
  (* the loop body *)
  set (body := fun jmode => if jmode <? Z.of_nat (List.length (firstn (Z.to_nat nm) (argsort keys))) then
      match nth_error (map (fun x => (ms (mode_at B0 x), ns (mode_at B0 x), map (ampl ms ns V rm (mode_at B0 x)) (upto c))) (upto (count B0 n)))
              (Z.to_nat (nth (Z.to_nat jmode) (firstn (Z.to_nat nm) (argsort keys)) 0)) with
      | Some ((m, n), row) => Ret (mkCurve S (map (fun b => if sq then fsqrt S (sb b) else sb b) (upto c)) (my_abs S lg row) Cycle (Mode m n))
      | None => index_error S
      end
    else index_error S).
  assert (Pre : forall (R : res S (plot S)) , 
     (run (bind (collect S nm body) (fun curves => Ret (mkPlot S (negb lg) [] curves (if lg then Some y else None)))) o = R) ->
     run (modeplot S argsort nm ym sq lg B0 rm) o = R).
  { intros R <-. unfold modeplot. rewrite bind_run, (y_modes _ _ _ _ _ _ _ _ _ H). cbv iota beta.
    rewrite bind_run, Ey. cbv iota beta. rewrite without_rows.
    rewrite combine_map.
    rewrite (upto_pos n) at 1 by auto. cbn [map].
    destruct (sh_first _ _ _ _ _ _ _ _ _ H) as (-> & ->). cbn [Z.eqb andb].
    change (0 =? 0) with true. cbn [andb]. cbn [bind].
    rewrite el_rows by auto.
    cbn [run]. assert (HV : mat_is (oA o A_bmnc_b) n c (V A_bmnc_b)) by (apply (sh_V _ _ _ _ _ _ _ _ _ H); destruct a; cbn; tauto).
    destruct HV as (_ & _ & E1 & E2 & _). rewrite E2.
    rewrite bind_run, (y_index o c (-1)) by lia. cbv iota beta.
    replace (wrap c (-1)) with (c - 1) by (unfold wrap; destruct (Z.ltb_spec (-1) 0); lia).
    rewrite map_map.
    replace (map (fun x => fneg S (fabs S (nth (Z.to_nat (c - 1)) (snd (ms (mode_at B0 x), ns (mode_at B0 x), map (ampl ms ns V rm (mode_at B0 x)) (upto c))) (toF 0)))) (upto (count B0 n))) with keys
      by (apply map_ext; intros x; cbn [snd]; now rewrite nth_map_upto by lia).
    rewrite bind_run, (y_radius _ _ _ _ _ _ _ _ _ sq H). cbv iota beta.
    fold body.
    destruct (run (bind (collect S nm body) _) o); reflexivity. }
  split.
  - intros Hn. apply Pre.
    assert (X : yields (collect S nm body) o (map (fun jm => cv (g jm)) (upto nm))).
    { apply y_collect; [lia|]. intros k Hk. unfold body. rewrite firstn_length, Hl, Lk.
      replace (Z.of_nat (Nat.min (Z.to_nat nm) (Z.to_nat (count B0 n)))) with nm by lia.
      destruct (Z.ltb_spec k nm); [|lia].
      assert (Hx : 0 <= nth (Z.to_nat k) (firstn (Z.to_nat nm) (argsort keys)) 0 < count B0 n).
      { assert (In (nth (Z.to_nat k) (firstn (Z.to_nat nm) (argsort keys)) 0) (argsort keys)).
        { rewrite <- (firstn_skipn (Z.to_nat nm) (argsort keys)). apply in_or_app. left.
          rewrite (firstn_skipn (Z.to_nat nm) (argsort keys)). apply nth_In. rewrite firstn_length, Hl, Lk. lia. }
        apply (Permutation_in _ Hp) in H1. apply in_upto in H1. rewrite Lk in H1. lia. }
      rewrite map_upto_nth by auto. unfold yields. cbn [run]. unfold cv, g, mode_curve. now rewrite abs_row. }
    eapply y_bind; [exact X|].
    assert (E : map (fun jm => cv (g jm)) (upto nm) = map cv (shown_modes argsort B0 n c ms ns V rm nm)).
    { unfold shown_modes. fold keys. rewrite map_map. unfold g.
      set (l := firstn (Z.to_nat nm) (argsort keys)).
      assert (Ll : List.length l = Z.to_nat nm) by (unfold l; rewrite firstn_length, Hl, Lk; lia).
      apply nth_ext with (d := cv 0) (d' := cv 0); [now rewrite !map_length, len_upto, Ll|].
      rewrite map_length, len_upto. intros q Hq.
      replace q with (Z.to_nat (Z.of_nat q)) by lia. rewrite nth_map_upto by lia.
      rewrite (nth_indep _ _ (cv (mode_at B0 0))) by (rewrite map_length, Ll; lia).
      rewrite (map_nth (fun x => cv (mode_at B0 x))). reflexivity. }
    rewrite E. apply y_ret.
  - intros Hn. apply Pre.
    assert (X : run (collect S nm body) o = RThrow "IndexError" o []).
    { unfold collect, for_. rewrite Z.sub_0_r.
      assert (Y : forall m lo acc, 0 <= lo <= count B0 n -> lo + Z.of_nat m = nm ->
        run (for_from m lo acc (fun k acc => bind (body k) (fun x => Ret (acc ++ [x])))) o = RThrow "IndexError" o []).
      { induction m as [|m IH]; intros lo acc Hlo E; [lia|]. cbn [for_from].
        assert (Lf : Z.of_nat (List.length (firstn (Z.to_nat nm) (argsort keys))) = count B0 n) by (rewrite firstn_length, Hl, Lk; lia).
        rewrite bind_run, bind_run. unfold body at 1. rewrite Lf.
        destruct (Z.ltb_spec lo (count B0 n)).
        - destruct (nth_error _ _) as [[[mm nn] row]|]; [|reflexivity]. cbn [run].
          rewrite IH by lia. reflexivity.
        - reflexivity. }
      apply Y; lia. }
    rewrite bind_run, X. reflexivity.
Qed.

(** ** symplot *)
Lemma y_symplot o a nf n c ms ns sb V max_m max_n (ym : option F) (sq lg B0 : bool) rm (detail : bool) :
  shows o a nf n c ms ns sb V -> 1 <= c ->
  let y := lower ym n c (ampl ms ns V rm) in
  let rows := map (fun k => (ms k, ns k, map (ampl ms ns V rm k) (upto c))) (upto n) in
  let rad := map (fun b => if sq then fsqrt S (sb b) else sb b) (upto c) in
  yields (symplot S max_m max_n ym sq lg B0 rm detail) o
    (mkPlot S (negb lg) (legend S nf B0 detail (first_of S rad lg rows))
      (flat_map (fun k => match mode_color nf max_m max_n B0 detail (ms k) (ns k) with
                          | Some col => [mode_curve c ms ns sb V rm sq lg col NoLabel k] | None => [] end) (upto n))
      (if lg then Some y else None)).
Proof.
  intros H Hc. destruct (sh_pos _ _ _ _ _ _ _ _ _ H) as (P1 & P2 & P3).
  pose proof (y_ymin o ym n c (ampl ms ns V rm) P2 Hc) as Ey. cbv zeta.
  unfold symplot. eapply y_bind; [apply (y_modes _ _ _ _ _ _ _ _ _ H)|]. cbv iota beta zeta.
  rewrite without_rows. eapply y_bind; [exact Ey|]. eapply y_bind; [apply (y_radius _ _ _ _ _ _ _ _ _ sq H)|].
  eapply y_bind; [apply y_geti, (sh_nfp _ _ _ _ _ _ _ _ _ H)|]. rewrite combine_map.
  match goal with |- yields (Ret ?x) _ ?y => replace x with y; [apply y_ret|] end.
  f_equal. rewrite flat_map_of_map. apply flat_map_ext. intros k.
  unfold mode_curve. rewrite abs_row. reflexivity.
Qed.
End PlotProof.

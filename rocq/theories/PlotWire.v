(** What wireplot returns, for any arithmetic. *)
From Coq Require Import ZArith QArith List String Bool Lia.
From Verif Require Import Scalar Prog Wp Func Step TrigProof RunProof FuncExt Spec RunThms Plots PlotSpec PlotProof.
Import ListNotations.
Local Open Scope Z_scope.

Section PlotWire.
Context {S : Scalar}.
Notation obj := (obj S).
Notation F := (F S).
Notation toF := (fofZ S).
Notation point := (point S).

(** [every], on numbered rows *)
Lemma every_none rf (g : list (list point)) : rf = 1 -> every S rf g = [].
Proof.
  intros ->. unfold every. generalize (zrange 1 (List.length g)). intros l. generalize g. induction l as [|k l IH]; intros [|r g']; cbn; auto.
  change (1 =? 0) with false. rewrite Z.mod_1_r. change (0 =? 1) with false. cbn. apply IH.
Qed.
Lemma every_app rf N (h : Z -> list point) : 0 <= N ->
  every S rf (map h (upto (N + 1))) = every S rf (map h (upto N)) ++ (if negb (rf =? 0) && ((N + 1) mod rf =? 1) then [h N] else []).
Proof.
  intros HN. unfold every. rewrite !map_length, !len_upto, !zrange_zseq.
  assert (E : forall n, zseq 1 n = map (fun k => k + 1) (zseq 0 n)).
  { assert (X : forall n lo, zseq (lo + 1) n = map (fun k => k + 1) (zseq lo n)).
    { intros n. induction n as [|n IH]; intros lo; cbn [zseq map]; [reflexivity|]. now rewrite IH. }
    intros n. apply (X n 0). }
  rewrite !E. fold (upto (N + 1)) (upto N). rewrite !combine_map, !flat_map_of_map.
  rewrite upto_succ, flat_map_app by auto. cbn [flat_map]. now rewrite app_nil_r.
Qed.
(** With refine >= 2 these are the rows 0, refine, 2 refine, ... *)
Lemma every_spec rf n (h : Z -> list point) : 2 <= rf -> 0 <= n ->
  every S rf (map h (upto (n * rf + 1))) = map (fun j => h (j * rf)) (upto (n + 1)).
Proof.
  intros Hr.
  assert (X : forall n, 0 <= n -> forall r, 0 <= r < rf ->
    every S rf (map h (upto (n * rf + 1 + r))) = map (fun j => h (j * rf)) (upto (n + 1))).
  { clear n. intros n Hn.
    revert n Hn. apply (natlike_ind (fun n => forall r, 0 <= r < rf -> every S rf (map h (upto (n * rf + 1 + r))) = map (fun j => h (j * rf)) (upto (n + 1)))).
    - intros r (Hr0 & Hr1). revert r Hr0 Hr1. apply (natlike_ind (fun r => r < rf -> every S rf (map h (upto (0 * rf + 1 + r))) = map (fun j => h (j * rf)) (upto (0 + 1)))).
      + intros _. change (0 * rf + 1 + 0) with (0 + 1). rewrite every_app by lia. cbn. destruct (Z.eqb_spec rf 0); [lia|].
        rewrite Z.mod_small by lia. reflexivity.
      + intros r Hr0 IH Hr1. replace (0 * rf + 1 + Z.succ r) with (0 * rf + 1 + r + 1) by lia.
        rewrite every_app, IH by lia. destruct (Z.eqb_spec rf 0); [lia|]. cbn [negb andb].
        destruct (Z.eqb_spec ((0 * rf + 1 + r + 1) mod rf) 1) as [E|_]; [|now rewrite app_nil_r]. exfalso.
        destruct (Z.eq_dec (r + 2) rf) as [E2|E2].
        * replace (0 * rf + 1 + r + 1) with rf in E by lia. rewrite Z.mod_same in E by lia. lia.
        * rewrite Z.mod_small in E by lia. lia.
    - intros n Hn IH r (Hr0 & Hr1). revert r Hr0 Hr1. apply (natlike_ind (fun r => r < rf -> every S rf (map h (upto (Z.succ n * rf + 1 + r))) = map (fun j => h (j * rf)) (upto (Z.succ n + 1)))).
      + intros _. replace (Z.succ n * rf + 1 + 0) with (n * rf + 1 + (rf - 1) + 1) by lia.
        rewrite every_app by nia. rewrite IH by lia. destruct (Z.eqb_spec rf 0); [lia|]. cbn [negb andb].
        replace (n * rf + 1 + (rf - 1) + 1) with (1 + (n + 1) * rf) by lia. rewrite Z.mod_add, Z.mod_small by lia.
        change (1 =? 1) with true. unfold Z.succ. rewrite (upto_succ (n + 1)), map_app by lia. cbn [map]. do 3 f_equal. lia.
      + intros r Hr0 IHr Hr1. replace (Z.succ n * rf + 1 + Z.succ r) with (Z.succ n * rf + 1 + r + 1) by lia.
        rewrite every_app, IHr by nia. destruct (Z.eqb_spec rf 0); [lia|]. cbn [negb andb].
        destruct (Z.eqb_spec ((Z.succ n * rf + 1 + r + 1) mod rf) 1) as [E|_]; [|now rewrite app_nil_r]. exfalso.
        replace (Z.succ n * rf + 1 + r + 1) with (r + 2 + Z.succ n * rf) in E by lia. rewrite Z.mod_add in E by lia.
        destruct (Z.eq_dec (r + 2) rf) as [E2|E2].
        * rewrite E2, Z.mod_same in E by lia. lia.
        * rewrite Z.mod_small in E by lia. lia. }
  intros Hn. specialize (X n Hn 0 ltac:(lia)). now rewrite Z.add_0_r in X.
Qed.

Lemma list_ext {T} (l l' : list T) : (forall k, nth_error l k = nth_error l' k) -> l = l'.
Proof.
  revert l'. induction l as [|x l IH]; intros [|y l'] H; [reflexivity|specialize (H 0%nat); discriminate|specialize (H 0%nat); discriminate|].
  f_equal; [specialize (H 0%nat); now injection H|]. apply IH. intros k. apply (H (Datatypes.S k)).
Qed.
Lemma columns_map (P : F -> F -> point) (ts ps : list F) :
  columns S (List.length ps) (map (fun t => map (P t) ps) ts) = map (fun p => map (fun t => P t p) ts) ps.
Proof.
  unfold columns. apply list_ext. intros k. rewrite !nth_error_map.
  destruct (Nat.lt_ge_cases k (List.length ps)) as [Hk|Hk].
  - assert (E : nth_error (seq 0 (List.length ps)) k = Some k).
    { rewrite (nth_error_nth' _ 0%nat) by (now rewrite seq_length). now rewrite seq_nth. }
    rewrite E. destruct (nth_error ps k) as [p|] eqn:Ep; [|apply nth_error_None in Ep; lia]. cbn [option_map]. f_equal.
    rewrite flat_map_of_map. clear E. induction ts as [|t ts IH]; cbn [flat_map map]; [reflexivity|].
    rewrite nth_error_map, Ep. cbn. now rewrite IH.
  - rewrite (proj2 (nth_error_None _ _)) by (now rewrite seq_length). rewrite (proj2 (nth_error_None _ _)) by auto. reflexivity.
Qed.

Section Sums.
Variables (a : bool) (ms ns : Z -> Z) (V : afield -> Z -> F).
Definition wstep (t p : F) (k : Z) (v : wcell S) : wcell S :=
  let an := angle S (ms k) (ns k) t p in let sn := fsin S an in let cs := fcos S an in
  let w := mkWc S (fadd S (wR S v) (fmul S (V A_rmnc_b k) cs)) (fadd S (wZ S v) (fmul S (V A_zmns_b k) sn))
     (fadd S (wRt S v) (fmul S (fmul S (toF (- ms k)) (V A_rmnc_b k)) sn))
     (fadd S (wZt S v) (fmul S (fmul S (toF (ms k)) (V A_zmns_b k)) cs))
     (fadd S (wNu S v) (fmul S (V A_numns_b k) sn)) in
  if a then mkWc S (fadd S (wR S w) (fmul S (V A_rmns_b k) sn)) (fadd S (wZ S w) (fmul S (V A_zmnc_b k) cs)) (wRt S w) (wZt S w)
     (fadd S (wNu S w) (fmul S (V A_numnc_b k) cs)) else w.
Definition wsum (n : Z) (t p : F) : wcell S := accum n (wstep t p) (mkWc S (toF 0) (toF 0) (toF 0) (toF 0) (toF 0)).
End Sums.
Definition ostep (i : Inp S) (js : Z) (t p : F) (k : Z) (v : F * F) : F * F :=
  let an := angle S (xm i k) (xn i k) t p in
  let w := (fadd S (fst v) (fmul S (rmnc i k js) (fcos S an)), fadd S (snd v) (fmul S (zmns i k js) (fsin S an))) in
  if asym i then (fadd S (fst w) (fmul S (rmns i k js) (fsin S an)), fadd S (snd w) (fmul S (zmnc i k js) (fcos S an))) else w.
Definition osum (i : Inp S) (js n : Z) (t p : F) : F * F := accum n (ostep i js t p) (toF 0, toF 0).

Definition wpoint (v : wcell S) (p : F) : point := cart S (wR S v) (wZ S v) (fsub S p (wNu S v)).
Definition wshrunk (v : wcell S) (p : F) : point :=
  let eps := flit S (2 # 1000) in
  let denom := fsqrt S (fadd S (fmul S (wRt S v) (wRt S v)) (fmul S (wZt S v) (wZt S v))) in
  cart S (fsub S (wR S v) (fmul S eps (fdiv S (wZt S v) denom))) (fadd S (wZ S v) (fmul S eps (fdiv S (wRt S v) denom)))
    (fsub S p (wNu S v)).
Lemma map_grid {T U} (g : F -> F -> T -> U) (ts ps : list F) (v : F -> F -> T) :
  map (map (fun c => match c with (t, p, x) => g t p x end)) (grid ts ps v) = map (fun t => map (fun p => g t p (v t p)) ps) ts.
Proof. unfold grid. rewrite map_map. apply map_ext. intros t. now rewrite map_map. Qed.

(** The grid points *)

Lemma wireplot_yields o a nf n c ms ns sb V i js nt np rf (sf orig : bool) :
  shows o a nf n c ms ns sb V -> 0 <= nt -> 0 <= np -> 0 <= rf ->
  - c <= (match js with Some j => j | None => c - 1 end) < c ->
  (orig = true -> repr o i /\ ok_inp i /\ nsurf i = c) ->
  let j := surf_index c js in
  let ts := points (two_pi S) (nt * rf + 1) in
  let ps := points (two_pi S) (np * rf + 1) in
  let cell := wsum a ms ns (fun f k => V f k j) n in
  let P t p := wpoint (cell t p) p in
  let O t p := let v := osum i (surf i j) (mnmax i) t p in cart S (fst v) (snd v) p in
  yields (wireplot S js nt np rf sf orig) o (mkWires S
    (if sf then Some (map (fun t => map (fun p => wshrunk (cell t p) p) ps) ts) else None)
    (every S rf (map (fun t => map (P t) ps) ts)) (every S rf (map (fun p => map (fun t => P t p) ts) ps))
    (if orig then every S rf (map (fun t => map (O t) ps) ts) else [])
    (if orig then every S rf (map (fun p => map (fun t => O t p) ts) ps) else [])).
Proof.
  intros H Ht Hp Hr Hj Ho. cbv zeta. destruct (sh_pos _ _ _ _ _ _ _ _ _ H) as (P1 & P2 & P3). unfold wireplot.
  eapply y_bind; [apply y_linspace; nia|]. eapply y_bind; [apply y_linspace; nia|].
  eapply y_bind with (a := match js with Some j => j | None => c - 1 end).
  { destruct js; [apply y_ret|]. eapply y_bind; [apply y_geti, (sh_c _ _ _ _ _ _ _ _ _ H)|apply y_ret]. }
  unfold surf_index. set (j0 := match js with Some j => j | None => c - 1 end) in *.
  eapply y_bind; [apply y_geti, (sh_n _ _ _ _ _ _ _ _ _ H)|]. cbv zeta.
  set (ts := points (two_pi S) (nt * rf + 1)). set (ps := points (two_pi S) (np * rf + 1)).
  set (cell := wsum a ms ns (fun f k => V f k (wrap c j0))).
  assert (L1 : forall f, In f (outs a) -> forall k, 0 <= k < n -> yields (np2 S f k j0) o (V f k (wrap c j0))).
  { intros f Hf k Hk. eapply y_np2; [apply (sh_V _ _ _ _ _ _ _ _ _ H); auto|auto|auto]. }
  eapply y_bind with (a := grid ts ps (cell n)).
  { rewrite mesh_grid. apply (y_for _ (fun k => grid ts ps (cell k))); [lia|reflexivity|].
    intros k Hk.
    eapply y_bind; [eapply y_npn; [apply (sh_xm _ _ _ _ _ _ _ _ _ H)|lia]|].
    eapply y_bind; [eapply y_npn; [apply (sh_xn _ _ _ _ _ _ _ _ _ H)|lia]|].
    eapply y_bind; [apply L1; [destruct a; cbn; tauto|lia]|].
    eapply y_bind; [apply L1; [destruct a; cbn; tauto|lia]|].
    eapply y_bind; [apply L1; [destruct a; cbn; tauto|lia]|].
    eapply y_bind; [apply y_getb, (sh_asym _ _ _ _ _ _ _ _ _ H)|].
    destruct a.
    - eapply y_bind; [apply L1; [cbn; tauto|lia]|].
      eapply y_bind; [apply L1; [cbn; tauto|lia]|].
      eapply y_bind; [apply L1; [cbn; tauto|lia]|].
      rewrite !upd_grid. erewrite grid_ext; [apply y_ret|]. intros t p. unfold cell, wsum. rewrite accum_succ by lia. reflexivity.
    - rewrite !upd_grid. erewrite grid_ext; [apply y_ret|]. intros t p. unfold cell, wsum. rewrite accum_succ by lia. reflexivity. }
  rewrite (map_grid (fun t p v => cart S (wR S v) (wZ S v) (fsub S p (wNu S v)))).
  rewrite (map_grid (fun t p v => wshrunk v p)).
  eapply y_bind with (a := if orig then map (fun t => map (fun p => let v := osum i (surf i (wrap c j0)) (mnmax i) t p in cart S (fst v) (snd v) p) ps) ts else []).
  { destruct orig; [|apply y_ret]. destruct (Ho eq_refl) as (R & Ok & En).
    eapply y_bind with (a := surf i (wrap c j0)).
    { pose proof (r_surf _ _ _ R) as Rs. rewrite En in Rs. unfold npn. eapply y_bind; [eapply y_sizen; exact Rs|].
      eapply y_bind; [apply y_index; exact Hj|]. eapply y_getn; [exact Rs|]. now apply wrap_ok. }
    pose proof (wrap_ok c j0 Hj) as Hw. pose proof (ok_surf _ _ Ok (wrap c j0) ltac:(lia)) as Hsf.
    set (js' := surf i (wrap c j0)) in *.
    eapply y_bind; [apply y_geti, (r_mnmax _ _ _ R)|].
    assert (L2 : forall f g, mat_is (oA o f) (mnmax i) (nsin i) g -> forall k, 0 <= k < mnmax i -> yields (np2 S f k js') o (g k js')).
    { intros f g M k Hk. pose proof (y_np2 f o _ _ _ k js' M Hk ltac:(lia)) as X. now rewrite wrap_id in X by auto. }
    pose proof (ok_mnmax _ _ Ok) as Hmn.
    eapply y_bind with (a := grid ts ps (osum i js' (mnmax i))).
    { rewrite mesh_grid. apply (y_for _ (fun k => grid ts ps (osum i js' k))); [lia|reflexivity|].
      intros k Hk.
      eapply y_bind; [eapply y_npn; [apply (r_xm _ _ _ R)|lia]|].
      eapply y_bind; [eapply y_npn; [apply (r_xn _ _ _ R)|lia]|].
      eapply y_bind; [apply L2; [apply (r_rmnc _ _ _ R)|lia]|].
      eapply y_bind; [apply L2; [apply (r_zmns _ _ _ R)|lia]|].
      eapply y_bind; [apply y_getb, (r_asym _ _ _ R)|].
      pose proof (r_rmns _ _ _ R) as Ra1. pose proof (r_zmnc _ _ _ R) as Ra2.
      destruct (asym i) eqn:Ea.
      - eapply y_bind; [apply L2; [apply Ra1; auto|lia]|].
        eapply y_bind; [apply L2; [apply Ra2; auto|lia]|].
        rewrite !upd_grid. erewrite grid_ext; [apply y_ret|]. intros t p. unfold osum. rewrite accum_succ by lia. unfold ostep. now rewrite Ea.
      - rewrite !upd_grid. erewrite grid_ext; [apply y_ret|]. intros t p. unfold osum. rewrite accum_succ by lia. unfold ostep. now rewrite Ea. }
    rewrite (map_grid (fun t p v => cart S (fst v) (snd v) p)). apply y_ret. }
  unfold wpoint. rewrite columns_map.
  destruct orig; [|apply y_ret].
  rewrite (columns_map (fun t p => cart S (fst (osum i (surf i (wrap c j0)) (mnmax i) t p)) (snd (osum i (surf i (wrap c j0)) (mnmax i) t p)) p)).
  apply y_ret.
Qed.
End PlotWire.

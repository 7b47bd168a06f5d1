(** init_from_vmec computes [from_vmec]. *)
From Coq Require Import ZArith QArith List String Bool Lia.
From Verif Require Import Scalar Prog Model Wp Func Step TrigProof Spec Vmec VmecSpec VmecProof.
Import ListNotations.
Local Open Scope Z_scope.

(** ** Partially filled arrays *)
Section Part.
Context {T : Type}.
Implicit Types a : array T.
Definition shp a (r c : Z) : Prop :=
  0 <= r /\ 0 <= c /\ arows a = r /\ acols a = c /\ Z.of_nat (List.length (adata a)) = r * c.
Definition part a (r c : Z) (D : Z -> Z -> Prop) (g : Z -> Z -> T) : Prop :=
  shp a r c /\
  forall i j, 0 <= i < r -> 0 <= j < c -> D i j -> znth (adata a) (i + j * r) = Some (Some (g i j)).

Lemma part_none a r c g : shp a r c -> part a r c (fun _ _ => False) g.
Proof. intros H. split; auto. intros; contradiction. Qed.
Lemma part_mono a r c (D : Z -> Z -> Prop) g (D' : Z -> Z -> Prop) g' :
  (forall i j, 0 <= i < r -> 0 <= j < c -> D' i j -> D i j /\ g i j = g' i j) ->
  part a r c D g -> part a r c D' g'.
Proof.
  intros H (Hs & Hp). split; auto. intros i j Hi Hj HD. destruct (H i j Hi Hj HD) as (X & <-). auto.
Qed.
Lemma part_mat a r c (D : Z -> Z -> Prop) g :
  (forall i j, 0 <= i < r -> 0 <= j < c -> D i j) -> part a r c D g -> mat_is a r c g.
Proof. intros H ((H0 & H0' & H1 & H2 & H3) & Hp). repeat split; auto. Qed.
Lemma part_vec a n (D : Z -> Z -> Prop) g :
  (forall i, 0 <= i < n -> D i 0) -> part a n 1 D g -> vec_is a n (fun i => g i 0).
Proof.
  intros H ((H0 & H0' & H1 & H2 & H3) & Hp). rewrite Z.mul_1_r in H3. repeat split; auto.
  intros i Hi. specialize (Hp i 0). rewrite Z.mul_0_l, Z.add_0_r in Hp. apply Hp; auto; lia.
Qed.
Lemma part_set a r c (D : Z -> Z -> Prop) g i j x : 0 <= i < r -> 0 <= j < c -> part a r c D g ->
  part (aput a (i + j * r) x) r c (fun k l => D k l \/ (k = i /\ l = j))
    (fun k l => if (k =? i) && (l =? j) then x else g k l).
Proof.
  intros Hi Hj ((H0 & H0' & H1 & H2 & H3) & Hp). pose proof (flat_range r c i j Hi Hj).
  split. { repeat split; cbn; auto. now rewrite zset_length. }
  intros k l Hk Hl HD. cbn [aput adata]. destruct (Z.eqb_spec k i); destruct (Z.eqb_spec l j); cbn.
  { subst. apply znth_zset_same. lia. }
  all: rewrite znth_zset_other; [apply Hp; auto; destruct HD as [?|(? & ?)]; auto; contradiction|lia|].
  all: intros E; apply flat_inj in E; lia.
Qed.
End Part.

Section Steps.
Variable S : Scalar.
Notation obj := (obj S).
Notation arr := (arr S).
Notation F := (F S).
Notation prog := (prog S).
Variable P : fp.
Hypothesis Pseq : fpSeq P.

Lemma wp_mset_part {T B} (a : array T) r c (D : Z -> Z -> Prop) g i j x (k : array T -> prog B) o Q :
  part a r c D g -> 0 <= i < r -> 0 <= j < c ->
  (forall a', part a' r c (fun k l => D k l \/ (k = i /\ l = j))
    (fun k l => if (k =? i) && (l =? j) then x else g k l) -> wp P (k a') o Q) ->
  wp P (bind (mset a i j x) k) o Q.
Proof.
  intros H Hi Hj W. pose proof H as ((H0 & H0' & H1 & H2 & H3) & _).
  pose proof (flat_range r c i j Hi Hj).
  unfold mset, vset. rewrite H1, H2, inside_true by auto. destruct (proj2 (znth_Some (adata a) (i + j * r))) as (y & ->); [lia|].
  cbn [bind]. apply W. now apply part_set.
Qed.
Lemma wp_mset_part1 {T} (a : array T) r c (D : Z -> Z -> Prop) g i j x (o : obj)
  (Q : array T -> obj -> list (event S) -> Prop) :
  part a r c D g -> 0 <= i < r -> 0 <= j < c ->
  (forall a', part a' r c (fun k l => D k l \/ (k = i /\ l = j))
    (fun k l => if (k =? i) && (l =? j) then x else g k l) -> Q a' o []) ->
  wp P (mset a i j x) o Q.
Proof.
  intros H Hi Hj W. pose proof H as ((H0 & H0' & H1 & H2 & H3) & _).
  pose proof (flat_range r c i j Hi Hj).
  unfold mset, vset. rewrite H1, H2, inside_true by auto. destruct (proj2 (znth_Some (adata a) (i + j * r))) as (y & ->); [lia|].
  cbn. apply W. now apply part_set.
Qed.
Lemma wp_vset_part1 {T} (a : array T) r (D : Z -> Z -> Prop) g i x (o : obj)
  (Q : array T -> obj -> list (event S) -> Prop) :
  part a r 1 D g -> 0 <= i < r ->
  (forall a', part a' r 1 (fun k l => D k l \/ (k = i /\ l = 0))
    (fun k l => if (k =? i) && (l =? 0) then x else g k l) -> Q a' o []) ->
  wp P (vset a i x) o Q.
Proof.
  intros H Hi W. pose proof H as ((H0 & H0' & H1 & H2 & H3) & _).
  assert (E : @vset S T a i x = mset a i 0 x)
    by (unfold mset; rewrite H1, H2, inside_true by lia; f_equal; lia).
  rewrite E. eapply wp_mset_part1; eauto. lia.
Qed.

Lemma wp_unbind {A} (p : prog A) : forall o (Q : A -> obj -> list (event S) -> Prop),
  wp P (bind p Ret) o Q -> wp P p o Q.
Proof.
  induction p; intros o Q W; cbn [wp bind] in *; auto; firstorder eauto.
Qed.

Lemma wp_assoc {A C D} (p : prog A) (q : A -> prog C) (k : C -> prog D) : forall o Q,
  wp P (bind p (fun a => bind (q a) k)) o Q -> wp P (bind (bind p q) k) o Q.
Proof.
  induction p; intros o Q W; cbn [wp bind] in *; auto; firstorder eauto.
Qed.

Lemma wp_vset1 {T} (a : array T) n g i x (o : obj) (Q : array T -> obj -> list (event S) -> Prop) :
  vec_is a n g -> 0 <= i < n ->
  (forall a', vec_is a' n (fun l => if l =? i then x else g l) -> Q a' o []) ->
  wp P (vset a i x) o Q.
Proof.
  intros H Hi W. pose proof (wp_vset (B := array T) S P a n g i x Ret o Q H Hi) as X.
  unfold vset in *. destruct (znth (adata a) i); cbn in *; auto.
Qed.

Lemma wp_resize_member {B} f r c (k : unit -> prog B) o Q :
  wf_arr (oA o f) -> 0 <= r -> 0 <= c ->
  (forall a, shp a r c -> wp P (k tt) (updA o f a) Q) ->
  wp P (bind (resize_member S f r c) k) o Q.
Proof.
  intros W Hr Hc H. unfold resize_member.
  eapply wp_bind0 with (R := fun _ o' => exists a, shp a r c /\ o' = updA o f a).
  - eapply wp_getarr; [exact Pseq|]. eapply wp_resize; [exact W|lia|lia|].
    intros a E1 E2 E3. cbn. splits; auto. exists a. split; auto. unfold shp. splits; auto.
  - intros [] o' (a & Ha & ->). auto.
Qed.

Lemma wp_fill_vec {B} f n x g (k : unit -> prog B) o Q :
  shp (oA o f) n 1 -> (forall j, 0 <= j < n -> x j = Ret (g j)) ->
  (forall a, vec_is a n g -> wp P (k tt) (updA o f a) Q) ->
  wp P (bind (fill_vec S f n x) k) o Q.
Proof.
  intros Hs Hx H. unfold fill_vec. pose proof (proj1 Hs) as Hn.
  eapply wp_bind0 with (R := fun _ o' => exists a, vec_is a n g /\ o' = updA o f a).
  - eapply wp_getarr; [exact Pseq|].
    eapply wp_sub with (R := fun a => vec_is a n g).
    + eapply wp_mono; [|eapply wp_for_pure with (Inv := fun j a => part a n 1 (fun i _ => i < j) (fun i _ => g i))].
      * cbn. intros a o' ev (-> & -> & Hp). splits; auto. eapply (part_vec a n _ (fun i _ => g i)); [|exact Hp]. cbn. lia.
      * lia.
      * eapply part_mono; [|apply (part_none _ _ _ (fun i _ => g i)); exact Hs]. cbn. intros; lia.
      * intros j a Hj Hp. rewrite Hx by lia. cbn [bind].
        eapply wp_vset_part1; [exact Hp|lia|]. intros a' Hp'. splits; auto.
        eapply part_mono; [|exact Hp']. cbn. intros i l Hi Hl HD. split; [lia|]. destruct (Z.eqb_spec i j); zb; subst; auto.
    + intros a Ha. cbn. splits; eauto.
  - intros [] o' (a & Ha & ->). auto.
Qed.

Lemma wp_drop_first {B} f rows n ns x0 g (k : unit -> prog B) o Q :
  shp (oA o f) rows n -> mat_is x0 rows ns g -> n + 1 <= ns ->
  (forall a, mat_is a rows n (fun k j => g k (j + 1)) -> wp P (k tt) (updA o f a) Q) ->
  wp P (bind (drop_first S f rows n x0) k) o Q.
Proof.
  intros Hs Hx Hns H. unfold drop_first. pose proof Hs as (Hr & Hn & _).
  eapply wp_bind0 with (R := fun _ o' => exists a, mat_is a rows n (fun k j => g k (j + 1)) /\ o' = updA o f a).
  - eapply wp_getarr; [exact Pseq|].
    eapply wp_sub with (R := fun a => mat_is a rows n (fun k j => g k (j + 1))).
    + eapply wp_mono; [|eapply wp_for_pure with (Inv := fun j a => part a rows n (fun _ l => l < j) (fun k l => g k (l + 1)))].
      * cbn. intros a o' ev (-> & -> & Hp). splits; auto. eapply part_mat; [|exact Hp]. cbn. lia.
      * lia.
      * eapply part_mono; [|apply (part_none _ _ _ (fun k l => g k (l + 1))); exact Hs]. cbn. intros; lia.
      * intros j a Hj Hp.
        eapply wp_mono; [|eapply wp_for_pure with (Inv := fun m a =>
          part a rows n (fun k l => l < j \/ (l = j /\ k < m)) (fun k l => g k (l + 1)))].
        -- cbn. intros a' o' ev (-> & -> & Hp'). splits; auto. eapply part_mono; [|exact Hp']. cbn. intros. split; auto. lia.
        -- lia.
        -- eapply part_mono; [|exact Hp]. cbn. intros. split; auto. lia.
        -- intros m a' Hm Hp'. eapply wp_mget; [exact Hx|lia|lia|].
           eapply wp_mset_part1; [exact Hp'|lia|lia|]. intros a'' Hp''. splits; auto.
           eapply part_mono; [|exact Hp'']. cbn. intros i l Hi Hl HD. split; [lia|].
           destruct (Z.eqb_spec i m); destruct (Z.eqb_spec l j); subst; auto.
    + intros a Ha. cbn. splits; eauto.
  - intros [] o' (a & Ha & ->). auto.
Qed.

Lemma wp_drop_first1 f rows n ns x0 g o (Q : unit -> obj -> list (event S) -> Prop) :
  shp (oA o f) rows n -> mat_is x0 rows ns g -> n + 1 <= ns ->
  (forall a, mat_is a rows n (fun k j => g k (j + 1)) -> Q tt (updA o f a) []) ->
  wp P (drop_first S f rows n x0) o Q.
Proof.
  intros Hs Hx Hns H. apply wp_unbind. eapply wp_drop_first; eauto.
Qed.

Lemma wp_interp {B} f mnmax n (d : vdat S) x0 g xm full half (k : unit -> prog B) o Q :
  shp (oA o f) mnmax n -> mat_is x0 mnmax (d_ns S d) g -> d_ns S d = n + 1 ->
  vec_is (oN o N_xm) mnmax xm ->
  vec_is full (d_ns S d) (sq_full d) -> vec_is half n (sq_half d) ->
  1 <= n -> (2 <= n \/ forall j, 0 <= j < mnmax -> xm j <> 1) ->
  (forall a, mat_is a mnmax n (fun k => to_half d (xm k) (g k)) -> wp P (k tt) (updA o f a) Q) ->
  wp P (bind (interp S f mnmax n x0 full half) k) o Q.
Proof.
  intros Hs Hx Hns Vm Vf Vh Hn1 Hroom H. unfold interp. pose proof Hs as (Hr & Hn & _).
  set (G := fun k => to_half d (xm k) (g k)).
  eapply wp_bind0 with (R := fun _ o' => exists a, mat_is a mnmax n G /\ o' = updA o f a).
  - eapply wp_getarr; [exact Pseq|].
    eapply wp_sub with (R := fun a => mat_is a mnmax n G).
    + eapply wp_mono; [|eapply wp_for_pure with (Inv := fun j a => part a mnmax n (fun k _ => k < j) G)].
      * cbn. intros a o' ev (-> & -> & Hp). splits; auto. eapply part_mat; [|exact Hp]. cbn. lia.
      * lia.
      * eapply part_mono; [|apply (part_none _ _ _ G); exact Hs]. cbn. intros; lia.
      * intros j a Hj Hp. eapply wp_getn; [exact Vm|lia|].
        unfold irem. change (2 =? 0) with false. cbn [bind].
        destruct (Z.eqb_spec (Z.rem (xm j) 2) 0) as [Ev|Od].
        -- eapply wp_mono; [|eapply wp_for_pure with (Inv := fun m a =>
             part a mnmax n (fun k l => k < j \/ (k = j /\ l < m)) G)].
           ++ cbn. intros a' o' ev (-> & -> & Hp'). splits; auto. eapply part_mono; [|exact Hp']. cbn. intros. split; auto. lia.
           ++ lia.
           ++ eapply part_mono; [|exact Hp]. cbn. intros. split; auto. lia.
           ++ intros m a' Hm Hp'. eapply wp_mget; [exact Hx|lia|lia|]. eapply wp_mget; [exact Hx|lia|lia|].
              eapply wp_mset_part1; [exact Hp'|lia|lia|]. intros a'' Hp''. splits; auto.
              eapply part_mono; [|exact Hp'']. cbn. intros i l Hi Hl HD. split; [lia|].
              destruct (Z.eqb_spec i j); destruct (Z.eqb_spec l m); subst; auto.
              cbn. unfold G, to_half. rewrite Ev. reflexivity.
        -- set (G1 := fun (k l : Z) => (flit S (1 # 2) * (g k l / sq_full d l + g k (l + 1)%Z / sq_full d (l + 1)%Z) * sq_half d l)%sc).
           eapply wp_sub with (R := fun a => part a mnmax n (fun k _ => k <= j) (fun k l => if k =? j then G1 k l else G k l)).
           ++ eapply wp_mono; [|eapply wp_for_pure with (Inv := fun m a =>
               part a mnmax n (fun k l => k < j \/ (k = j /\ l < m)) (fun k l => if k =? j then G1 k l else G k l))].
              ** cbn. intros a' o' ev (-> & -> & Hp'). splits; auto. eapply part_mono; [|exact Hp']. cbn. intros. split; auto. lia.
              ** lia.
              ** eapply part_mono; [|exact Hp]. cbn. intros. split; [lia|]. zb. auto.
              ** intros m a' Hm Hp'. eapply wp_mget; [exact Hx|lia|lia|]. eapply wp_vget; [exact Vf|lia|].
                 eapply wp_mget; [exact Hx|lia|lia|]. eapply wp_vget; [exact Vf|lia|]. eapply wp_vget; [exact Vh|lia|].
                 eapply wp_mset_part1; [exact Hp'|lia|lia|]. intros a'' Hp''. splits; auto.
                 eapply part_mono; [|exact Hp'']. cbn. intros i l Hi Hl HD. split; [lia|].
                 destruct (Z.eqb_spec i j); destruct (Z.eqb_spec l m); subst; auto.
           ++ intros a' Hp'. destruct (Z.eqb_spec (xm j) 1) as [E1|E1].
              ** destruct Hroom as [H2|H2]; [|destruct (H2 j Hj E1)].
                 eapply wp_mget; [exact Hx|lia|lia|]. eapply wp_vget; [exact Vf|lia|].
                 eapply wp_mget; [exact Hx|lia|lia|]. eapply wp_vget; [exact Vf|lia|]. eapply wp_vget; [exact Vh|lia|].
                 eapply wp_mset_part1; [exact Hp'|lia|lia|]. intros a'' Hp''. splits; auto.
                 eapply part_mono; [|exact Hp'']. cbn. intros i l Hi Hl HD. split; [lia|].
                 destruct (Z.eqb_spec i j); cbn; [|reflexivity]. subst i. unfold G, G1, to_half.
                 destruct (Z.eqb_spec (Z.rem (xm j) 2) 0); [contradiction|]. rewrite E1. change (1 =? 1) with true. cbn [andb].
                 destruct (Z.eqb_spec l 0); reflexivity.
              ** cbn. splits; auto. eapply part_mono; [|exact Hp']. cbn. intros i l Hi Hl HD. split; [lia|].
                 destruct (Z.eqb_spec i j); cbn; [|reflexivity]. subst i. unfold G, G1, to_half.
                 destruct (Z.eqb_spec (Z.rem (xm j) 2) 0); [contradiction|].
                 destruct (Z.eqb_spec (xm j) 1); [contradiction|]. reflexivity.
    + intros a Ha. cbn. splits; eauto.
  - intros [] o' (a & Ha & ->). auto.
Qed.
End Steps.

(** One thread may touch everything, so [wp] says no more than [run]. *)
Lemma run_wp {S A} (p : prog S A) : forall o a o' ev (Q : A -> obj S -> list (event S) -> Prop),
  run p o = ROk a o' ev -> Q a o' ev -> wp fp_any p o Q.
Proof.
  induction p; intros o a0 o' ev Q E HQ; cbn [wp run] in *; try discriminate;
    try (injection E as <- <- <-; exact HQ);
    repeat match type of E with context [match ?x with _ => _ end] =>
      lazymatch x with run _ _ => fail | _ => destruct x eqn:?; try discriminate end end;
    try (repeat split; eauto; fail).
  destruct (run p o) as [a1 o1 e1| |] eqn:E1; cbn in E; try discriminate.
  injection E as <- <- <-. eapply IHp; eauto.
Qed.

(** ** The phases *)
Section Collect.
Variable S : Scalar.
Notation obj := (obj S).
Notation prog := (prog S).
Lemma upTo_snoc {T} j (g : Z -> T) : 0 <= j -> upTo (j + 1) g = upTo j g ++ [g j].
Proof.
  intros Hj. unfold upTo. replace (Z.to_nat (j + 1)) with (Datatypes.S (Z.to_nat j)) by lia.
  rewrite seq_S, map_app. cbn. now rewrite Z2Nat.id by lia.
Qed.
Lemma wp_collect {T} {B} m (x : Z -> prog T) g (k : list T -> prog B) o Q :
  0 <= m ->
  (forall j (k' : T -> prog (list T)) Q', 0 <= j < m -> wp fp_any (k' (g j)) o Q' -> wp fp_any (bind (x j) k') o Q') ->
  wp fp_any (k (upTo m g)) o Q ->
  wp fp_any (bind (for_ 0 m [] (fun j l => bind (x j) (fun y => Ret (l ++ [y])))) k) o Q.
Proof.
  intros Hm Hx W. eapply wp_sub with (R := fun l => l = upTo m g).
  - eapply wp_mono; [|eapply wp_for_pure with (Inv := fun j l => l = upTo j g)].
    + cbn. tauto.
    + exact Hm.
    + reflexivity.
    + intros j l Hj ->. apply Hx; [lia|]. cbn. splits; auto. now rewrite upTo_snoc by lia.
  - now intros l ->.
Qed.
Lemma wp_collect1 {T} m (x : Z -> prog T) g o (Q : list T -> obj -> list (event S) -> Prop) :
  0 <= m ->
  (forall j (k' : T -> prog (list T)) Q', 0 <= j < m -> wp fp_any (k' (g j)) o Q' -> wp fp_any (bind (x j) k') o Q') ->
  Q (upTo m g) o [] ->
  wp fp_any (for_ 0 m [] (fun j l => bind (x j) (fun y => Ret (l ++ [y])))) o Q.
Proof.
  intros Hm Hx W. eapply wp_mono; [|eapply wp_for_pure with (Inv := fun j l => l = upTo j g)].
  + cbn. intros l o' ev (-> & -> & ->). exact W.
  + exact Hm.
  + reflexivity.
  + intros j l Hj ->. apply Hx; [lia|]. cbn. splits; auto. now rewrite upTo_snoc by lia.
Qed.
End Collect.

Section VmecRun.
Context {S : Scalar}.
Notation obj := (obj S).
Notation arr := (arr S).
Notation F := (F S).
Notation prog := (prog S).
Variables (i : Inp S) (v : vargs S) (d : vdat S).
Hypothesis Hv : vholds v i d.
Hypothesis Hi : vints i d.
Hypothesis Hns : 2 <= d_ns S d.
Let n := d_ns S d - 1.

Let any : fpSeq fp_any := Logic.I.

Lemma shp_wf {T} (a : array T) r c : shp a r c -> wf_arr a.
Proof. intros (H1 & H2 & H3 & H4 & H5). unfold wf_arr. rewrite H3, H4, H5. auto. Qed.
Lemma shp_size {T} (a : array T) r c : shp a r c -> asize a = r * c.
Proof. intros (H1 & H2 & H3 & H4 & H5). unfold asize. congruence. Qed.
Lemma vget_ret {T} (a : array T) m g j : vec_is a m g -> 0 <= j < m -> @vget S T a j = Ret (g j).
Proof. intros (_ & _ & _ & H) Hj. unfold vget. now rewrite H. Qed.

Record profiled (o o' : obj) : Prop := mkProf {
  pf_iota : vec_is (oA o' A_iota) n (fun j => d_iotas S d (j + 1));
  pf_flux : fluxes_stored o' d;
  pf_wf : forall f, In f [A_phi; A_phip; A_chi; A_pres] -> wf_arr (oA o' f);
  pf_surf : vec_is (oN o' N_compute_surfs) n (fun j => j);
  pf_B : forall f, oB o' f = oB o f;
  pf_I : forall f, oI o' f = oI o f;
  pf_F : forall f, f <> F_toroidal_flux -> oF o' f = oF o f;
  pf_N : forall f, f <> N_compute_surfs -> oN o' f = oN o f;
  pf_A : forall f, ~ In f [A_iota; A_phi; A_phip; A_chi; A_pres] -> oA o' f = oA o f
}.

Lemma store_profiles_spec (o : obj) : wf_obj o ->
  wp fp_any (store_profiles S v n) o (fun _ o' ev => ev = [] /\ profiled o o').
Proof.
  intros W. unfold store_profiles. destruct Hi as (HI & _).
  eapply wp_resize_member; [exact any|apply (wf_A o W)|lia|lia|]. intros a1 H1.
  eapply wp_fill_vec with (g := fun j => d_iotas S d (j + 1)); [exact any|exact H1| |].
  { intros j Hj. eapply vget_ret; [exact (vh_iotas _ _ _ _ Hv)|lia]. }
  intros a2 H2.
  set (o2 := updA (updA o A_iota a1) A_iota a2).
  eapply wp_bind0 with (R := fun _ o' => fluxes_stored o' d /\
    (forall f, In f [A_phi; A_phip; A_chi; A_pres] -> wf_arr (oA o' f)) /\
    vec_is (oA o' A_iota) n (fun j => d_iotas S d (j + 1)) /\
    (forall f, oB o' f = oB o f) /\ (forall f, oI o' f = oI o f) /\
    (forall f, f <> F_toroidal_flux -> oF o' f = oF o f) /\ (forall f, oN o' f = oN o f) /\
    (forall f, ~ In f [A_iota; A_phi; A_phip; A_chi; A_pres] -> oA o' f = oA o f)).
  { unfold fluxes_stored. destruct (d_flux S d) eqn:Ef.
    - pose proof (vh_phip _ _ _ _ Hv Ef) as Vp. pose proof (vh_chi _ _ _ _ Hv Ef) as Vc.
      pose proof (vh_pres _ _ _ _ Hv Ef) as Vr. pose proof (vh_phi _ _ _ _ Hv Ef) as Vh.
      rewrite (vec_is_asize _ _ _ Vp). destruct (Z.eqb_spec (d_ns S d) 0); [lia|].
      eapply wp_iadd. { unfold INT_MIN, INT_MAX, n in *; lia. }
      replace (n + 1) with (d_ns S d) by (unfold n; lia).
      eapply wp_resize_member; [exact any|apply (wf_A o W A_phip)|lia|lia|]. intros b1 B1.
      eapply wp_resize_member; [exact any|apply (wf_A o W A_chi)|lia|lia|]. intros b2 B2.
      eapply wp_resize_member; [exact any|apply (wf_A o W A_pres)|lia|lia|]. intros b3 B3.
      eapply wp_resize_member; [exact any|apply (wf_A o W A_phi)|lia|lia|]. intros b4 B4.
      eapply wp_fill_vec with (g := fun j => (- d_phip S d j / ftwopi S)%sc); [exact any|exact B1| |].
      { intros j Hj. rewrite (vget_ret _ _ _ _ Vp Hj). reflexivity. } intros c1 C1.
      eapply wp_fill_vec; [exact any|exact B2| |].
      { intros j Hj. eapply vget_ret; [exact Vc|exact Hj]. } intros c2 C2.
      eapply wp_fill_vec; [exact any|exact B3| |].
      { intros j Hj. eapply vget_ret; [exact Vr|exact Hj]. } intros c3 C3.
      eapply wp_fill_vec; [exact any|exact B4| |].
      { intros j Hj. eapply vget_ret; [exact Vh|exact Hj]. } intros c4 C4.
      rewrite (vh_ns _ _ _ _ Hv). eapply wp_isub. { unfold INT_MIN, INT_MAX in *; lia. }
      eapply wp_getv; [exact C4|lia|exact Logic.I|].
      cbn [wp setf]. splits; auto.
      + intros f [<-|[<-|[<-|[<-|[]]]]]; eapply vec_is_wf; [exact C4|exact C1|exact C2|exact C3].
      + intros f Hf. destruct f; try reflexivity. contradiction.
      + intros f Hf. destruct f; try reflexivity; cbn in Hf; tauto.
    - rewrite (vh_noflux _ _ _ _ Hv Ef). change (0 =? 0) with true. cbv iota.
      eapply wp_resize_member; [exact any|apply (wf_A o W A_phip)|lia|lia|]. intros b1 B1.
      eapply wp_resize_member; [exact any|apply (wf_A o W A_chi)|lia|lia|]. intros b2 B2.
      eapply wp_resize_member; [exact any|apply (wf_A o W A_pres)|lia|lia|]. intros b3 B3.
      eapply wp_resize_member; [exact any|apply (wf_A o W A_phi)|lia|lia|]. intros b4 B4.
      cbn [wp setf]. splits; auto.
      + intros f [<-|[<-|[<-|[<-|[]]]]]; [exact (shp_size _ _ _ B1)|exact (shp_size _ _ _ B2)
          |exact (shp_size _ _ _ B3)|exact (shp_size _ _ _ B4)].
      + intros f [<-|[<-|[<-|[<-|[]]]]]; eapply shp_wf; [exact B4|exact B1|exact B2|exact B3].
      + intros f Hf. destruct f; try reflexivity. contradiction.
      + intros f Hf. destruct f; try reflexivity; cbn in Hf; tauto. }
  intros _ o' (X1 & X0 & X2 & X3 & X4 & X5 & X6 & X7).
  eapply wp_zerosv; [unfold n; lia|]. intros cs Hcs.
  eapply wp_sub with (R := fun cs => vec_is cs n (fun j => j)).
  - eapply wp_mono; [|eapply wp_for_pure with (Inv := fun j cs => vec_is cs n (fun k => if k <? j then k else 0))].
    + cbn. intros a o'' ev (-> & -> & Ha). splits; auto. eapply vec_ext; [|exact Ha]. intros k Hk. cbv beta. zb; lia.
    + unfold n; lia.
    + eapply vec_ext; [|exact Hcs]. intros k Hk. cbv beta. zb; lia.
    + intros j a Hj Ha. eapply wp_vset1; [exact Ha|lia|]. intros a' Ha'. splits; auto.
      eapply vec_ext; [|exact Ha']. intros k Hk. cbv beta. zb; lia.
  - intros a Ha. cbn [wp setn]. splits; auto. split; auto.
    intros f Hf. destruct f; try apply X6. contradiction.
Qed.

Record halved (o o' : obj) : Prop := mkHalf {
  hf_rmnc : shp (oA o' A_rmnc) (mnmax i) n;
  hf_zmns : shp (oA o' A_zmns) (mnmax i) n;
  hf_lmns : mat_is (oA o' A_lmns) (mnmax i) n (fun k j => d_lmns S d k (j + 1));
  hf_bmnc : mat_is (oA o' A_bmnc) (mnmaxq i) n (fun k j => d_bmnc S d k (j + 1));
  hf_bsubumnc : mat_is (oA o' A_bsubumnc) (mnmaxq i) n (fun k j => d_bsubumnc S d k (j + 1));
  hf_bsubvmnc : mat_is (oA o' A_bsubvmnc) (mnmaxq i) n (fun k j => d_bsubvmnc S d k (j + 1));
  hf_rmns : asym i = true -> shp (oA o' A_rmns) (mnmax i) n;
  hf_zmnc : asym i = true -> shp (oA o' A_zmnc) (mnmax i) n;
  hf_lmnc : asym i = true -> mat_is (oA o' A_lmnc) (mnmax i) n (fun k j => d_lmnc S d k (j + 1));
  hf_bmns : asym i = true -> mat_is (oA o' A_bmns) (mnmaxq i) n (fun k j => d_bmns S d k (j + 1));
  hf_bsubumns : asym i = true -> mat_is (oA o' A_bsubumns) (mnmaxq i) n (fun k j => d_bsubumns S d k (j + 1));
  hf_bsubvmns : asym i = true -> mat_is (oA o' A_bsubvmns) (mnmaxq i) n (fun k j => d_bsubvmns S d k (j + 1));
  hf_B : forall f, oB o' f = oB o f;
  hf_I : forall f, oI o' f = oI o f;
  hf_F : forall f, oF o' f = oF o f;
  hf_N : forall f, oN o' f = oN o f;
  hf_A : forall f, ~ In f [A_rmnc; A_zmns; A_lmns; A_bmnc; A_bsubumnc; A_bsubvmnc] ->
    (asym i = true -> ~ In f vmec_arrays_asym) -> oA o' f = oA o f
}.

Lemma store_half_spec (o : obj) :
  oI o I_mnmax = Some (mnmax i) -> oI o I_mnmax_nyq = Some (mnmaxq i) -> oB o B_asym = Some (asym i) ->
  (forall f, In f [A_rmnc; A_zmns; A_lmns; A_bmnc; A_bsubumnc; A_bsubvmnc] \/ In f vmec_arrays_asym ->
     wf_arr (oA o f)) ->
  wp fp_any (store_half S v n) o (fun _ o' ev => ev = [] /\ halved o o').
Proof.
  intros Em Eq Ea W. destruct Hi as (HI & Hm & Hq & _). unfold store_half.
  assert (Hn : 0 <= n) by (unfold n; lia). assert (En : n + 1 <= d_ns S d) by (unfold n; lia).
  eapply wp_geti; [exact Em|].
  eapply wp_resize_member; [exact any|apply (W A_rmnc); cbn; tauto|lia|lia|]. intros a1 H1.
  eapply wp_resize_member; [exact any|apply (W A_zmns); cbn; tauto|lia|lia|]. intros a2 H2.
  eapply wp_resize_member; [exact any|apply (W A_lmns); cbn; tauto|lia|lia|]. intros a3 H3.
  eapply wp_drop_first; [exact any|exact H3|exact (vh_lmns _ _ _ _ Hv)|exact En|]. intros a3' H3'.
  eapply wp_geti; [exact Eq|].
  eapply wp_resize_member; [exact any|apply (W A_bmnc); cbn; tauto|lia|lia|]. intros a4 H4.
  eapply wp_resize_member; [exact any|apply (W A_bsubumnc); cbn; tauto|lia|lia|]. intros a5 H5.
  eapply wp_resize_member; [exact any|apply (W A_bsubvmnc); cbn; tauto|lia|lia|]. intros a6 H6.
  eapply wp_drop_first; [exact any|exact H4|exact (vh_bmnc _ _ _ _ Hv)|exact En|]. intros a4' H4'.
  eapply wp_drop_first; [exact any|exact H5|exact (vh_bsubumnc _ _ _ _ Hv)|exact En|]. intros a5' H5'.
  eapply wp_drop_first; [exact any|exact H6|exact (vh_bsubvmnc _ _ _ _ Hv)|exact En|]. intros a6' H6'.
  eapply wp_getb; [exact Ea|]. destruct (asym i) eqn:EA.
  - eapply wp_resize_member; [exact any|apply (W A_rmns); cbn; tauto|lia|lia|]. intros b1 B1.
    eapply wp_resize_member; [exact any|apply (W A_zmnc); cbn; tauto|lia|lia|]. intros b2 B2.
    eapply wp_resize_member; [exact any|apply (W A_lmnc); cbn; tauto|lia|lia|]. intros b3 B3.
    eapply wp_drop_first; [exact any|exact B3|exact (vh_lmnc _ _ _ _ Hv EA)|exact En|]. intros b3' B3'.
    eapply wp_resize_member; [exact any|apply (W A_bmns); cbn; tauto|lia|lia|]. intros b4 B4.
    eapply wp_resize_member; [exact any|apply (W A_bsubumns); cbn; tauto|lia|lia|]. intros b5 B5.
    eapply wp_resize_member; [exact any|apply (W A_bsubvmns); cbn; tauto|lia|lia|]. intros b6 B6.
    eapply wp_drop_first; [exact any|exact B4|exact (vh_bmns _ _ _ _ Hv EA)|exact En|]. intros b4' B4'.
    eapply wp_drop_first; [exact any|exact B5|exact (vh_bsubumns _ _ _ _ Hv EA)|exact En|]. intros b5' B5'.
    eapply wp_drop_first1; [exact any|exact B6|exact (vh_bsubvmns _ _ _ _ Hv EA)|exact En|]. intros b6' B6'.
    split; auto. constructor; try rewrite EA; intros;
      first [assumption|reflexivity|destruct f; try reflexivity; cbn in *; tauto].
  - cbn [wp]. split; auto. constructor; try rewrite EA; intros;
      first [discriminate|assumption|reflexivity|destruct f; try reflexivity; cbn in *; tauto].
Qed.


Lemma wp_out {B} t z x (k : unit -> prog B) o Q :
  wp fp_any (k tt) o (fun a o' ev => Q a o' (mkEv t z x :: ev)) -> wp fp_any (bind (out t z x) k) o Q.
Proof. intros H. exact H. Qed.

Lemma report_spec (o : obj) :
  vbase o i -> (verb i <= 1 \/ (4 <= d_ns S d /\ 4 <= mnmax i)) ->
  wp fp_any (report S v) o (fun _ o' ev => ev = vmec_lines i d /\ o' = o).
Proof.
  intros B Hr. unfold report, vmec_lines. rewrite (vh_ns _ _ _ _ Hv).
  eapply wp_geti; [exact (vb_verb _ _ _ B)|]. destruct (Z.ltb_spec 0 (verb i)); [|cbn; auto].
  eapply wp_geti; [exact (vb_mpol _ _ _ B)|]. eapply wp_geti; [exact (vb_ntor _ _ _ B)|].
  eapply wp_geti; [exact (vb_mnmax _ _ _ B)|]. eapply wp_geti; [exact (vb_mnmaxq _ _ _ B)|].
  apply wp_out. destruct (Z.ltb_spec 1 (verb i)); [|cbn; auto].
  destruct Hr as [?|(Hr1 & Hr2)]; [lia|].
  pose proof (vh_iotas _ _ _ _ Hv) as VI. unfold elems, elems_n. rewrite (vec_is_asize _ _ _ VI).
  eapply wp_collect with (g := d_iotas S d); [lia| |].
  { intros j k' Q' Hj Wk. eapply wp_vget; [exact VI|lia|exact Wk]. }
  apply wp_out.
  eapply wp_collect with (g := d_iotas S d); [lia| |].
  { intros j k' Q' Hj Wk. eapply wp_vget; [exact VI|lia|exact Wk]. }
  apply wp_out. apply wp_assoc.
  eapply wp_sizen; [exact (vb_xm _ _ _ B)|].
  eapply wp_collect with (g := xm i); [destruct Hi; lia| |].
  { intros j k' Q' Hj Wk. eapply wp_getn; [exact (vb_xm _ _ _ B)|lia|exact Wk]. }
  apply wp_out. apply wp_assoc.
  eapply wp_sizen; [exact (vb_xn _ _ _ B)|].
  eapply wp_collect with (g := xn i); [destruct Hi; lia| |].
  { intros j k' Q' Hj Wk. eapply wp_getn; [exact (vb_xn _ _ _ B)|lia|exact Wk]. }
  apply wp_out.
  eapply wp_collect with (g := fun j => d_rmnc S d 0 j); [lia| |].
  { intros j k' Q' Hj Wk. eapply wp_mget; [exact (vh_rmnc _ _ _ _ Hv)|lia|lia|exact Wk]. }
  apply wp_out.
  eapply wp_collect with (g := fun j => d_rmnc S d j 0); [lia| |].
  { intros j k' Q' Hj Wk. eapply wp_mget; [exact (vh_rmnc _ _ _ _ Hv)|lia|lia|exact Wk]. }
  cbn. auto.
Qed.

Lemma radial_grids_spec (o : obj) :
  wf_arr (oA o A_s_in) ->
  wp fp_any (radial_grids S (d_ns S d)) o (fun r o' ev => ev = [] /\
    vec_is (fst r) (d_ns S d) (sq_full d) /\ vec_is (snd r) n (sq_half d) /\
    exists a, vec_is a n (s_half d) /\ exists a0, o' = updA (updA o A_s_in a0) A_s_in a).
Proof.
  intros W. unfold radial_grids. cbv zeta. destruct Hi as (HI & _).
  eapply wp_isub. { unfold INT_MIN, INT_MAX in *; lia. } fold n.
  assert (W0 : wf_arr (@empty_vec F)) by (cbn; unfold wf_arr; cbn; lia).
  eapply wp_resize; [exact W0|lia|lia|]. intros a1 E1 E2 E3.
  eapply wp_resize; [exact W0|unfold n; lia|lia|]. intros a2 E4 E5 E6.
  assert (S1 : shp a1 (d_ns S d) 1) by (unfold shp; splits; auto; lia).
  assert (S2 : shp a2 n 1) by (unfold shp; splits; auto; unfold n; lia).
  eapply wp_resize_member; [exact any|exact W|unfold n; lia|lia|]. intros a3 H3.
  eapply wp_sub with (R := fun a => vec_is a (d_ns S d) (fun j => fsqrt S (hs d * fofZ S j)%sc)).
  { eapply wp_mono; [|eapply wp_for_pure with (Inv := fun j a =>
      part a (d_ns S d) 1 (fun k _ => k < j) (fun j _ => fsqrt S (hs d * fofZ S j)%sc))].
    - cbn. intros a o' ev (-> & -> & Ha). splits; auto.
      eapply (part_vec a _ _ (fun j _ => fsqrt S (hs d * fofZ S j)%sc)); [|exact Ha]. cbn. lia.
    - lia.
    - eapply part_mono; [|apply (part_none _ _ _ (fun j _ => fsqrt S (hs d * fofZ S j)%sc)); exact S1]. cbn. intros; lia.
    - intros j a Hj Ha. eapply wp_vset_part1; [exact Ha|lia|]. intros a' Ha'. splits; auto.
      eapply part_mono; [|exact Ha']. cbn. intros k l Hk Hl HD. split; [lia|].
      destruct (Z.eqb_spec k j); zb; subst; auto. }
  intros full Vf.
  eapply wp_fill_vec with (g := s_half d); [exact any|exact H3|reflexivity|]. intros a4 H4.
  eapply wp_sub with (R := fun a => vec_is a n (sq_half d)).
  { eapply wp_mono; [|eapply wp_for_pure with (Inv := fun j a =>
      part a n 1 (fun k _ => k < j) (fun j _ => sq_half d j))].
    - cbn. intros a o' ev (-> & -> & Ha). splits; auto.
      eapply (part_vec a _ _ (fun j _ => sq_half d j)); [|exact Ha]. cbn. lia.
    - unfold n; lia.
    - eapply part_mono; [|apply (part_none _ _ _ (fun j _ => sq_half d j)); exact S2]. cbn. intros; lia.
    - intros j a Hj Ha. eapply wp_getv; [exact H4|lia|exact Logic.I|].
      eapply wp_vset_part1; [exact Ha|lia|]. intros a' Ha'. splits; auto.
      eapply part_mono; [|exact Ha']. cbn. intros k l Hk Hl HD. split; [lia|].
      destruct (Z.eqb_spec k j); zb; subst; auto. }
  intros half Vh.
  eapply wp_vset; [exact Vf|lia|]. intros full' Vf'. cbn [wp fst snd]. splits; auto.
  exists a4. split; auto. eauto.
Qed.

(** ** The whole function *)
Theorem init_from_vmec_spec (o : obj) : accepted o i v d ->
  wp fp_any (init_from_vmec S v) o (fun _ o' ev => ev = vmec_lines i d /\
    repr o' (from_vmec i d) /\ fluxes_stored o' d /\ vmec_frame (asym i) o o' /\ wf_obj o').
Proof.
  intros A. destruct A as [B W _ Sh Hr _]. unfold init_from_vmec.
  pose proof Hi as (HI & Hm & Hq & Hn & H6 & H2n & H2n').
  rewrite (vh_ns _ _ _ _ Hv). eapply wp_isub. { unfold INT_MIN, INT_MAX in *; lia. } fold n.
  eapply wp_seti; [exact any|]. set (o1 := updI o I_ns_in (Some n)).
  assert (R1 : vready o1 i).
  { constructor; try apply B; cbn; try tauto; try lia.
    intros f [<-|[<-|[<-|[<-|[<-|[]]]]]]; [| | | |exact (vb_surf _ _ _ B)];
      do 2 eexists; apply B. }
  eapply wp_bind0 with (R := fun _ o' => o' = o1).
  { destruct (vet_verdict S o1 i v R1) as [(E & _)|(m & _ & F)].
    - rewrite (vh_ns _ _ _ _ Hv). unfold INT_MAX in *. lia.
    - eapply run_wp; [exact E|]. auto.
    - exfalso. apply F. destruct Sh. constructor; auto. }
  intros _ o' ->. clear R1.
  eapply wp_bind0; [apply store_profiles_spec; constructor; apply W|].
  intros u2 o2 Pf. cbv beta in Pf.
  eapply wp_bind0; [apply store_half_spec|].
  { rewrite (pf_I _ _ Pf). apply B. }
  { rewrite (pf_I _ _ Pf). apply B. }
  { rewrite (pf_B _ _ Pf). apply B. }
  { intros f Hf. rewrite (pf_A _ _ Pf); [apply W|]. intros X. cbn in Hf, X. intuition congruence. }
  intros u3 o3 Hf. cbv beta in Hf.
  assert (B3 : vbase o3 i).
  { constructor; rewrite ?(hf_I _ _ Hf), ?(hf_B _ _ Hf), ?(pf_I _ _ Pf), ?(pf_B _ _ Pf); try apply B;
      try (rewrite (hf_N _ _ Hf), (pf_N _ _ Pf) by discriminate; apply B).
    do 2 eexists. rewrite (hf_N _ _ Hf). exact (pf_surf _ _ Pf). }
  apply wp_bind. eapply wp_mono; [|apply report_spec; [exact B3|apply Hr]].
  cbv beta. intros _ o' ev (-> & ->).
  eapply wp_mono with (Q := fun _ o' ev => ev = [] /\ repr o' (from_vmec i d) /\ fluxes_stored o' d /\
    vmec_frame (asym i) o o' /\ wf_obj o').
  { intros b o' ev (-> & X). rewrite app_nil_r. auto. }
  assert (A3 : forall f, In f [A_s_in; A_phi; A_phip; A_chi; A_pres; A_iota] -> oA o3 f = oA o2 f).
  { intros f X. apply (hf_A _ _ Hf); [|intros _]; intros Y; cbn in X, Y; intuition congruence. }
  eapply wp_bind0; [apply radial_grids_spec|].
  { rewrite A3 by (cbn; tauto). rewrite (pf_A _ _ Pf); [apply W|]. cbn. intuition congruence. }
  intros (full, half) o4. cbn [fst snd]. intros (Vf & Vh & si & Hsi & si0 & ->).
  eapply wp_geti; [exact (vb_mnmax _ _ _ B3)|]. eapply wp_getb; [exact (vb_asym _ _ _ B3)|].
  assert (Er : 2 <= n \/ forall j, 0 <= j < mnmax i -> xm i j <> 1).
  { destruct Hr as ([?|?] & _); [left; unfold n; lia|right; auto]. }
  assert (En : d_ns S d = n + 1) by (unfold n; lia). assert (Hn1 : 1 <= n) by (unfold n; lia).
  eapply wp_interp with (d := d); [exact any|exact (hf_rmnc _ _ Hf)|exact (vh_rmnc _ _ _ _ Hv)|exact En|exact (vb_xm _ _ _ B3)
    |exact Vf|exact Vh|exact Hn1|exact Er|]. intros b1 B1.
  eapply wp_interp with (d := d); [exact any|exact (hf_zmns _ _ Hf)|exact (vh_zmns _ _ _ _ Hv)|exact En|exact (vb_xm _ _ _ B3)
    |exact Vf|exact Vh|exact Hn1|exact Er|]. intros b2 B2.
  match goal with |- wp _ _ ?oo _ => set (o5 := oo) end.
  eapply wp_bind0 with (R := fun _ o' =>
    (asym i = true -> mat_is (oA o' A_rmns) (mnmax i) n (rmns (from_vmec i d)) /\
                      mat_is (oA o' A_zmnc) (mnmax i) n (zmnc (from_vmec i d))) /\
    (forall f, oB o' f = oB o3 f) /\ (forall f, oI o' f = oI o3 f) /\ (forall f, oF o' f = oF o3 f) /\
    (forall f, oN o' f = oN o3 f) /\
    (forall f, (asym i = true -> f <> A_rmns /\ f <> A_zmnc) -> oA o' f = oA o5 f)).
  { destruct (asym i) eqn:EA.
    - eapply wp_interp with (d := d); [exact any|exact (hf_rmns _ _ Hf EA)|exact (vh_rmns _ _ _ _ Hv EA)|exact En
        |exact (vb_xm _ _ _ B3)|exact Vf|exact Vh|exact Hn1|exact Er|]. intros b3 C3.
      apply wp_unbind.
      eapply wp_interp with (d := d); [exact any|exact (hf_zmnc _ _ Hf EA)|exact (vh_zmnc _ _ _ _ Hv EA)|exact En
        |exact (vb_xm _ _ _ B3)|exact Vf|exact Vh|exact Hn1|exact Er|]. intros b4 C4.
      cbn [wp]. splits; auto.
      intros f X. destruct (X eq_refl). destruct f; try reflexivity; contradiction.
    - cbn [wp]. splits; auto; discriminate. }
  intros _ o6 (X1 & X2 & X3 & X4 & X5 & X6).
  eapply wp_geti; [rewrite X3; exact (vb_mpol _ _ _ B3)|].
  eapply wp_imul; [exact H6|]. eapply wp_seti; [exact any|].
  eapply wp_geti; [cbn; rewrite X3; exact (vb_ntor _ _ _ B3)|].
  eapply wp_imul; [unfold INT_MIN, INT_MAX in *; lia|].
  eapply wp_isub; [unfold INT_MIN, INT_MAX in *; lia|].
  match goal with |- wp _ _ ?oo _ => set (o7 := oo) end. cbn [wp seti].
  match goal with |- _ /\ _ /\ repr ?oo _ /\ _ => set (o8 := oo) end.
  assert (V1 : mat_is (oA o8 A_rmnc) (mnmax i) n (rmnc (from_vmec i d))).
  { change (oA o8 A_rmnc) with (oA o6 A_rmnc). rewrite X6 by (split; discriminate). exact B1. }
  assert (V2 : mat_is (oA o8 A_zmns) (mnmax i) n (zmns (from_vmec i d))).
  { change (oA o8 A_zmns) with (oA o6 A_zmns). rewrite X6 by (split; discriminate). exact B2. }
  assert (V3 : vec_is (oA o8 A_s_in) n (s_half d)).
  { change (oA o8 A_s_in) with (oA o6 A_s_in). rewrite X6 by (split; discriminate). exact Hsi. }
  assert (Y : forall f, ~ In f [A_s_in; A_rmnc; A_zmns; A_rmns; A_zmnc] -> oA o8 f = oA o3 f).
  { intros f Nf. change (oA o8 f) with (oA o6 f). cbn in Nf. rewrite X6 by (intros _; split; intuition congruence).
    unfold o5. destruct f; try reflexivity; tauto. }
  assert (Y' : asym i = false -> forall f, ~ In f [A_s_in; A_rmnc; A_zmns] -> oA o8 f = oA o3 f).
  { intros EA f Nf. change (oA o8 f) with (oA o6 f). cbn in Nf. rewrite X6 by (rewrite EA; discriminate).
    unfold o5. destruct f; try reflexivity; tauto. }
  assert (R8 : repr o8 (from_vmec i d)).
  { constructor; cbn [from_vmec asym nfp mpol ntor mnmax mpolq ntorq mnmaxq nsin mboz nboz verb nsurf surf
                      xm xn xmq xnq sin_ iota lmns bmnc bsubumnc bsubvmnc lmnc bmns bsubumns bsubvmns]; fold n; intros;
      try assumption; try reflexivity; try (apply X1; assumption);
      try (rewrite Y by (cbn; intuition discriminate); first [apply Hf; assumption|apply Hf]);
      try (change (oI o8 ?f) with (oI o6 f));
      try (change (oB o8) with (oB o6); rewrite X2; apply B3);
      try (change (oN o8) with (oN o6); rewrite X5; apply B3).
    all: try (rewrite X3; apply B3).
    - rewrite X3, (hf_I _ _ Hf), (pf_I _ _ Pf). reflexivity.
    - change (oN o8) with (oN o6). rewrite X5, (hf_N _ _ Hf). apply Pf.
    - rewrite Y by (cbn; intuition discriminate). rewrite A3 by (cbn; tauto). apply Pf. }
  assert (Hfl : forall f, In f [A_phi; A_phip; A_chi; A_pres] -> oA o8 f = oA o2 f).
  { intros f X. rewrite Y by (intros Z; cbn in X, Z; intuition congruence). apply A3. cbn in X |- *. tauto. }
  assert (EF : forall f, oF o8 f = oF o2 f).
  { intros f. change (oF o8) with (oF o6). now rewrite X4, (hf_F _ _ Hf). }
  splits; auto.
  - pose proof (pf_flux _ _ Pf) as X. unfold fluxes_stored in *. rewrite EF. destruct (d_flux S d).
    + rewrite !Hfl by (cbn; tauto). exact X.
    + destruct X as (X & X'). split; auto. intros f Xf. rewrite Hfl by (cbn in Xf |- *; tauto). auto.
  - constructor.
    + intros f. change (oB o8) with (oB o6). now rewrite X2, (hf_B _ _ Hf), (pf_B _ _ Pf).
    + intros f Nf. cbn in Nf. transitivity (oI o6 f). { destruct f; try reflexivity; tauto. }
      rewrite X3, (hf_I _ _ Hf), (pf_I _ _ Pf). destruct f; try reflexivity; tauto.
    + intros f Nf. rewrite EF. apply (pf_F _ _ Pf). exact Nf.
    + intros f Nf. change (oN o8) with (oN o6). rewrite X5, (hf_N _ _ Hf). apply (pf_N _ _ Pf). exact Nf.
    + intros f N1 N2. cbn in N1.
      transitivity (oA o3 f).
      { destruct (asym i) eqn:EA; [apply Y|apply Y'; auto]; [specialize (N2 eq_refl); cbn in N2|]; cbn; tauto. }
      rewrite (hf_A _ _ Hf); [|cbn; tauto|exact N2]. apply (pf_A _ _ Pf). cbn. tauto.
  - assert (WN : forall f, wf_arr (oN o8 f) /\ acols (oN o8 f) = 1).
    { intros f. change (oN o8) with (oN o6). rewrite X5, (hf_N _ _ Hf).
      destruct (nfield_eq_dec f N_compute_surfs) as [->|Nf].
      - split; [eapply vec_is_wf|]; apply (pf_surf _ _ Pf).
      - rewrite (pf_N _ _ Pf) by exact Nf. apply W. }
    assert (W3 : forall f, wf_arr (oA o3 f)).
    { assert (W2 : forall f, wf_arr (oA o2 f)).
      { intros f. destruct (in_dec afield_eq_dec f [A_iota; A_phi; A_phip; A_chi; A_pres]) as [Y1|Y1].
        - destruct Y1 as [<-|Y1]; [eapply vec_is_wf; apply Pf|apply (pf_wf _ _ Pf); exact Y1].
        - rewrite (pf_A _ _ Pf) by exact Y1. apply W. }
      intros f. destruct (in_dec afield_eq_dec f [A_rmnc; A_zmns; A_lmns; A_bmnc; A_bsubumnc; A_bsubvmnc]) as [Y1|Y1].
      - destruct Y1 as [<-|[<-|[<-|[<-|[<-|[<-|[]]]]]]];
          first [eapply shp_wf; apply Hf|eapply mat_is_wf; apply Hf].
      - destruct (asym i) eqn:EA.
        + destruct (in_dec afield_eq_dec f vmec_arrays_asym) as [Y2|Y2].
          * destruct Y2 as [<-|[<-|[<-|[<-|[<-|[<-|[]]]]]]];
              first [eapply shp_wf; apply Hf; exact EA|eapply mat_is_wf; apply Hf; exact EA].
          * rewrite (hf_A _ _ Hf); auto.
        + rewrite (hf_A _ _ Hf); auto. rewrite EA. discriminate. }
    constructor; [exact WN|].
    intros f. destruct (in_dec afield_eq_dec f [A_s_in; A_rmnc; A_zmns]) as [Y1|Y1].
    { destruct Y1 as [<-|[<-|[<-|[]]]]; [eapply vec_is_wf; exact V3|eapply mat_is_wf; exact V1|eapply mat_is_wf; exact V2]. }
    destruct (asym i) eqn:EA; [|rewrite Y' by auto; apply W3].
    destruct (X1 eq_refl) as (Z1 & Z2).
    destruct (afield_eq_dec f A_rmns) as [->|N1]; [eapply mat_is_wf; exact Z1|].
    destruct (afield_eq_dec f A_zmnc) as [->|N2]; [eapply mat_is_wf; exact Z2|].
    rewrite Y; [apply W3|]. cbn in *. intuition congruence.
Qed.
End VmecRun.

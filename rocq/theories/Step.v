(** Symbolic-execution rules for [wp]. *)
From Coq Require Import ZArith List String Bool Lia.
From Verif Require Import Scalar Prog Wp Func.
Import ListNotations.
Local Open Scope Z_scope.

Section Step.
Variable S : Scalar.
Notation prog := (prog S).
Notation arr := (arr S).
Notation obj := (obj S).
Variable P : fp.
Context {B : Type}.
Implicit Types (o : obj) (Q : B -> obj -> list (event S) -> Prop).

Lemma wp_geti f v (k : Z -> prog B) o Q :
  oI o f = Some v -> wp P (k v) o Q -> wp P (bind (geti f) k) o Q.
Proof. intros. cbn. eauto. Qed.
Lemma wp_getb f v (k : bool -> prog B) o Q :
  oB o f = Some v -> wp P (k v) o Q -> wp P (bind (getb f) k) o Q.
Proof. intros. cbn. eauto. Qed.
Lemma wp_sizen f n g (k : Z -> prog B) o Q :
  vec_is (oN o f) n g -> wp P (k n) o Q -> wp P (bind (sizen f) k) o Q.
Proof. intros H. cbn. now rewrite (vec_is_asize _ _ _ H). Qed.
Lemma wp_getn f n g i (k : Z -> prog B) o Q :
  vec_is (oN o f) n g -> 0 <= i < n -> wp P (k (g i)) o Q -> wp P (bind (getn f i) k) o Q.
Proof. intros (_ & _ & _ & H) Hi W. cbn. rewrite H by auto. eauto. Qed.
Lemma wp_getv f n g i (k : F S -> prog B) o Q :
  vec_is (oA o f) n g -> 0 <= i < n -> fpR P f i ->
  wp P (k (g i)) o Q -> wp P (bind (getv f i) k) o Q.
Proof. intros (_ & _ & _ & H) Hi Hr W. cbn. rewrite H by auto. eauto. Qed.
Lemma inside_true i j r c : 0 <= i < r -> 0 <= j < c -> inside i j r c = true.
Proof.
  intros Hi Hj. unfold inside. rewrite !andb_true_iff, !Z.leb_le, !Z.ltb_lt. tauto.
Qed.
Lemma wp_getm f r c g i j (k : F S -> prog B) o Q :
  mat_is (oA o f) r c g -> 0 <= i < r -> 0 <= j < c -> fpR P f (i + j * r) ->
  wp P (k (g i j)) o Q -> wp P (bind (getm f i j) k) o Q.
Proof.
  intros (_ & _ & H1 & H2 & _ & H) Hi Hj Hr W. cbn. rewrite H1, H2, inside_true by auto. cbn. rewrite H by auto. eauto.
Qed.
Lemma wp_cell f i v (k : F S -> prog B) o Q :
  znth (adata (oA o f)) i = Some (Some v) -> fpR P f i ->
  wp P (k v) o Q -> wp P (bind (getv f i) k) o Q.
Proof. intros H Hr W. cbn. rewrite H by auto. eauto. Qed.
Lemma wp_putv f i x (k : unit -> prog B) o Q :
  (exists c, znth (adata (oA o f)) i = Some c) -> fpW P f i ->
  wp P (k tt) (updA o f (aput (oA o f) i x)) Q -> wp P (bind (putv f i x) k) o Q.
Proof. intros H Hr W. cbn. eauto. Qed.

Lemma wp_vget {T} (a : array T) n g i (k : T -> prog B) o Q :
  vec_is a n g -> 0 <= i < n -> wp P (k (g i)) o Q -> wp P (bind (vget a i) k) o Q.
Proof. intros (_ & _ & _ & H) Hi W. unfold vget. rewrite H by auto. exact W. Qed.
Lemma wp_vset {T} (a : array T) n g i x (k : array T -> prog B) o Q :
  vec_is a n g -> 0 <= i < n ->
  (forall a', vec_is a' n (fun l => if l =? i then x else g l) -> wp P (k a') o Q) ->
  wp P (bind (vset a i x) k) o Q.
Proof.
  intros H Hi W. unfold vset. pose proof H as (_ & _ & _ & E). rewrite E by auto.
  cbn. apply W. now apply vec_is_put.
Qed.
Lemma wp_vinc (a : arr) n g i x (k : arr -> prog B) o Q :
  vec_is a n g -> 0 <= i < n ->
  (forall a', vec_is a' n (fun l => if l =? i then fadd S (g i) x else g l) -> wp P (k a') o Q) ->
  wp P (bind (vinc a i x) k) o Q.
Proof.
  intros H Hi W. unfold vinc, vget, vset. pose proof H as (_ & _ & _ & E). rewrite E by auto.
  cbn. apply W. now apply vec_is_put.
Qed.
Lemma wp_mget {T} (a : array T) r c g i j (k : T -> prog B) o Q :
  mat_is a r c g -> 0 <= i < r -> 0 <= j < c ->
  wp P (k (g i j)) o Q -> wp P (bind (mget a i j) k) o Q.
Proof.
  intros (_ & _ & H1 & H2 & _ & H) Hi Hj W. unfold mget, vget. rewrite H1, H2, inside_true, H by auto. exact W.
Qed.
Lemma wp_mset {T} (a : array T) r c g i j x (k : array T -> prog B) o Q :
  mat_is a r c g -> 0 <= i < r -> 0 <= j < c ->
  (forall a', mat_is a' r c (fun l m => if (l =? i) && (m =? j) then x else g l m) ->
     wp P (k a') o Q) ->
  wp P (bind (mset a i j x) k) o Q.
Proof.
  intros H Hi Hj W. unfold mset, vset. pose proof H as (_ & _ & H1 & H2 & _ & E).
  rewrite H1, H2, inside_true, E by auto. cbn. apply W. rewrite <- H1. rewrite H1 at 2. now apply mat_is_put.
Qed.
Lemma wp_zerosv {T} (x : T) n (k : array T -> prog B) o Q :
  0 <= n -> (forall a, vec_is a n (fun _ => x) -> wp P (k a) o Q) ->
  wp P (bind (zeros x n 1) k) o Q.
Proof.
  intros Hn W. unfold zeros. destruct (Z.ltb_spec n 0); [lia|]. cbn.
  apply W. now apply vec_is_zeros.
Qed.
Lemma wp_zerosm {T} (x : T) r c (k : array T -> prog B) o Q :
  0 <= r -> 0 <= c -> (forall a, mat_is a r c (fun _ _ => x) -> wp P (k a) o Q) ->
  wp P (bind (zeros x r c) k) o Q.
Proof.
  intros Hr Hc W. unfold zeros. destruct (Z.ltb_spec r 0); [lia|]. destruct (Z.ltb_spec c 0); [lia|].
  cbn. apply W. now apply mat_is_zeros.
Qed.

Lemma in_int_true z : INT_MIN <= z <= INT_MAX -> in_int z = true.
Proof. intros. unfold in_int. apply andb_true_intro. split; apply Z.leb_le; lia. Qed.
Lemma wp_int z (k : Z -> prog B) o Q :
  INT_MIN <= z <= INT_MAX -> wp P (k z) o Q -> wp P (bind (int_ z) k) o Q.
Proof. intros H W. unfold int_. rewrite in_int_true by auto. exact W. Qed.
Lemma wp_iadd a b (k : Z -> prog B) o Q :
  INT_MIN <= a + b <= INT_MAX -> wp P (k (a + b)) o Q -> wp P (bind (iadd a b) k) o Q.
Proof. apply wp_int. Qed.
Lemma wp_isub a b (k : Z -> prog B) o Q :
  INT_MIN <= a - b <= INT_MAX -> wp P (k (a - b)) o Q -> wp P (bind (isub a b) k) o Q.
Proof. apply wp_int. Qed.
Lemma wp_imul a b (k : Z -> prog B) o Q :
  INT_MIN <= a * b <= INT_MAX -> wp P (k (a * b)) o Q -> wp P (bind (imul a b) k) o Q.
Proof. apply wp_int. Qed.
Lemma wp_iabs a (k : Z -> prog B) o Q :
  Z.abs a <= INT_MAX -> wp P (k (Z.abs a)) o Q -> wp P (bind (iabs a) k) o Q.
Proof. intros. apply wp_int; auto. unfold INT_MIN, INT_MAX in *. lia. Qed.
Lemma wp_idiv a b (k : Z -> prog B) o Q :
  b <> 0 -> INT_MIN <= Z.quot a b <= INT_MAX ->
  wp P (k (Z.quot a b)) o Q -> wp P (bind (idiv a b) k) o Q.
Proof.
  intros H H' W. unfold idiv. destruct (Z.eqb_spec b 0); [lia|]. now apply wp_int.
Qed.

(** Whole-member writes *)
Lemma wp_seti f v (k : unit -> prog B) o Q :
  fpSeq P -> wp P (k tt) (updI o f (Some v)) Q -> wp P (bind (seti f v) k) o Q.
Proof. intros. cbn. auto. Qed.
Lemma wp_setf f v (k : unit -> prog B) o Q :
  fpSeq P -> wp P (k tt) (updF o f (Some v)) Q -> wp P (bind (setf f v) k) o Q.
Proof. intros. cbn. auto. Qed.
Lemma wp_setn f v (k : unit -> prog B) o Q :
  fpSeq P -> wp P (k tt) (updN o f v) Q -> wp P (bind (setn f v) k) o Q.
Proof. intros. cbn. auto. Qed.
Lemma wp_setarr f v (k : unit -> prog B) o Q :
  fpSeq P -> wp P (k tt) (updA o f v) Q -> wp P (bind (setarr f v) k) o Q.
Proof. intros. cbn. auto. Qed.

(** A sub-program that prints nothing and leaves the object alone. *)
Lemma wp_sub {A} (p : prog A) (k : A -> prog B) o Q (R : A -> Prop) :
  wp P p o (fun a o' ev => ev = [] /\ o' = o /\ R a) ->
  (forall a, R a -> wp P (k a) o Q) ->
  wp P (bind p k) o Q.
Proof.
  intros W H. eapply wp_bind0 with (R := fun a o' => o' = o /\ R a); [exact W|].
  intros a o' (-> & Ha). auto.
Qed.

Lemma wp_getarr f (k : arr -> prog B) o Q :
  fpSeq P -> wp P (k (oA o f)) o Q -> wp P (bind (getarr f) k) o Q.
Proof. intros. cbn. auto. Qed.
Lemma wp_resize {T} (a : array T) r c (k : array T -> prog B) o Q :
  wf_arr a -> 0 <= r -> 0 <= c ->
  (forall a', arows a' = r -> acols a' = c -> Z.of_nat (List.length (adata a')) = r * c ->
     wp P (k a') o Q) ->
  wp P (bind (resize a r c) k) o Q.
Proof.
  intros (_ & _ & Wa) Hr Hc H. unfold resize.
  destruct (Z.ltb_spec r 0); [lia|]. destruct (Z.ltb_spec c 0); [lia|].
  cbn [orb]. destruct (Z.eqb_spec (r * c) (asize a)) as [E|E]; cbn [bind]; apply H; auto.
  - cbn. rewrite E. exact Wa.
  - cbn. apply zrepeat_length. nia.
Qed.

(** [if (b) std::cout << ...] *)
Lemma wp_if_out (b : bool) tag zs xs (k : unit -> prog B) o Q :
  wp P (k tt) o (fun a o' ev => Q a o' ((if b then [mkEv tag zs xs] else []) ++ ev)) ->
  wp P (bind (if b then out tag zs xs else Ret tt) k) o Q.
Proof. destruct b; intros W; exact W. Qed.

Lemma wp_if_out2 (b : bool) tag zs xs tag' zs' xs' (k : unit -> prog B) o Q :
  wp P (k tt) o (fun a o' ev => Q a o' ((if b then [mkEv tag zs xs; mkEv tag' zs' xs'] else []) ++ ev)) ->
  wp P (bind (if b then bind (out tag zs xs) (fun _ => out tag' zs' xs') else Ret tt) k) o Q.
Proof. destruct b; intros W; exact W. Qed.

(** A loop that leaves the object alone. *)
Lemma wp_for_pure {St} (body : Z -> St -> prog St) (Inv : Z -> St -> Prop) lo hi st o :
  lo <= hi ->
  Inv lo st ->
  (forall i st, lo <= i < hi -> Inv i st ->
     wp P (body i st) o (fun st' o' ev => ev = [] /\ o' = o /\ Inv (i + 1) st')) ->
  wp P (for_ lo hi st body) o (fun st' o' ev => ev = [] /\ o' = o /\ Inv hi st').
Proof.
  intros H H0 Hb. apply wp_for with (Inv := fun i st o' => o' = o /\ Inv i st); auto.
  intros i st' o' Hi (-> & HI). apply Hb; auto.
Qed.
End Step.

Lemma accum_0 {A} (f : Z -> A -> A) a : accum 0 f a = a.
Proof. reflexivity. Qed.
Lemma accum_succ {A} n (f : Z -> A -> A) a : 0 <= n -> accum (n + 1) f a = f n (accum n f a).
Proof.
  intros H. unfold accum. replace (Z.to_nat (n + 1)) with (Datatypes.S (Z.to_nat n)) by lia.
  cbn. now rewrite Z2Nat.id by lia.
Qed.
Lemma accum_ext {A} n (f g : Z -> A -> A) a :
  (forall k x, 0 <= k < n -> f k x = g k x) -> accum n f a = accum n g a.
Proof.
  intros H. destruct (Z.le_gt_cases 0 n) as [Hn|Hn].
  - revert n Hn H. apply (natlike_ind (fun n => _ -> accum n f a = accum n g a)); [reflexivity|].
    intros n Hn IH H. unfold Z.succ. rewrite !accum_succ by auto. rewrite IH; [apply H; lia|].
    intros. apply H. lia.
  - unfold accum. replace (Z.to_nat n) with O by lia. reflexivity.
Qed.

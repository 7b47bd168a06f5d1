(** A total-correctness calculus for [prog], with memory footprints.

    [wp P p o Q] : from object [o], program [p] neither throws nor has undefined
    behaviour, touches the cells of array members only as [P] allows, and ends in [Q]. *)
From Coq Require Import ZArith List String Bool Lia.
From Verif Require Import Scalar Prog.
Import ListNotations.
Local Open Scope Z_scope.

Record fp : Type := mkFp {
  fpR : afield -> Z -> Prop;     (* cells that may be read *)
  fpW : afield -> Z -> Prop;     (* cells that may be written *)
  fpSeq : Prop                   (* whole-member reads and writes allowed *)
}.
Definition fp_any : fp := mkFp (fun _ _ => True) (fun _ _ => True) True.

Section Wp.
Variable S : Scalar.
Notation prog := (prog S).
Notation arr := (arr S).
Notation obj := (obj S).
Notation event := (event S).

Fixpoint wp {A} (P : fp) (p : prog A) (o : obj) (Q : A -> obj -> list event -> Prop) : Prop :=
  match p with
  | Ret a => Q a o []
  | Throw _ => False
  | UB _ => False
  | GetI f k => exists v, oI o f = Some v /\ wp P (k v) o Q
  | SetI f v k => fpSeq P /\ wp P k (updI o f (Some v)) Q
  | GetB f k => exists v, oB o f = Some v /\ wp P (k v) o Q
  | SetB f v k => fpSeq P /\ wp P k (updB o f (Some v)) Q
  | GetF f k => exists v, oF o f = Some v /\ wp P (k v) o Q
  | SetF f v k => fpSeq P /\ wp P k (updF o f (Some v)) Q
  | GetN f i k => exists v, znth (adata (oN o f)) i = Some (Some v) /\ wp P (k v) o Q
  | SizeN f k => wp P (k (asize (oN o f))) o Q
  | SetNArr f v k => fpSeq P /\ wp P k (updN o f v) Q
  | GetA f i k => fpR P f i /\ exists v, znth (adata (oA o f)) i = Some (Some v) /\ wp P (k v) o Q
  | PutA f i x k =>
      fpW P f i /\ (exists c, znth (adata (oA o f)) i = Some c) /\
      wp P k (updA o f (aput (oA o f) i x)) Q
  | DimA f k => wp P (k (arows (oA o f)) (acols (oA o f))) o Q
  | GetArr f k => fpSeq P /\ wp P (k (oA o f)) o Q
  | SetArr f v k => fpSeq P /\ wp P k (updA o f v) Q
  | Out e k => wp P k o (fun a o' ev => Q a o' (e :: ev))
  end.

Local Ltac wdes :=
  repeat match goal with
  | H : _ /\ _ |- _ => destruct H
  | H : exists _, _ |- _ => destruct H
  end.

(** ** Soundness for the sequential semantics *)
Lemma wp_run {A} (P : fp) (p : prog A) : forall o Q,
  wp P p o Q -> exists a o' ev, run p o = ROk a o' ev /\ Q a o' ev.
Proof.
  induction p; intros o Q W; cbn [wp run] in *; try contradiction.
  - eauto.
  - destruct W as (v & E & W). rewrite E. eauto.
  - destruct W as (_ & W). eauto.
  - destruct W as (v & E & W). rewrite E. eauto.
  - destruct W as (_ & W). eauto.
  - destruct W as (v & E & W). rewrite E. eauto.
  - destruct W as (_ & W). eauto.
  - destruct W as (v & E & W). rewrite E. eauto.
  - eauto.
  - destruct W as (_ & W). eauto.
  - destruct W as (_ & v & E & W). rewrite E. eauto.
  - destruct W as (_ & (c & E) & W). rewrite E. eauto.
  - eauto.
  - destruct W as (_ & W). eauto.
  - destruct W as (_ & W). eauto.
  - apply IHp in W. destruct W as (a & o' & ev & E & HQ). rewrite E. cbn. eauto 6.
Qed.

Lemma wp_mono {A} (P : fp) (p : prog A) : forall o (Q Q' : A -> obj -> list event -> Prop),
  (forall a o' ev, Q a o' ev -> Q' a o' ev) -> wp P p o Q -> wp P p o Q'.
Proof.
  induction p; intros o Q Q' HQ W; cbn [wp] in *; try contradiction; wdes;
    repeat split; eauto.
  eapply IHp; [|exact W]. cbn. auto.
Qed.

Lemma wp_weaken {A} (P P' : fp) (p : prog A) : forall o Q,
  (forall f i, fpR P f i -> fpR P' f i) -> (forall f i, fpW P f i -> fpW P' f i) ->
  (fpSeq P -> fpSeq P') -> wp P p o Q -> wp P' p o Q.
Proof.
  induction p; intros o Q H1 H2 H3 W; cbn [wp] in *; try contradiction; wdes;
    repeat split; eauto.
Qed.

Lemma wp_bind {A B} (P : fp) (p : prog A) (k : A -> prog B) : forall o Q,
  wp P p o (fun a o' ev => wp P (k a) o' (fun b o'' ev' => Q b o'' (ev ++ ev'))) ->
  wp P (bind p k) o Q.
Proof.
  induction p; intros o Q W; cbn [wp bind] in *; try contradiction; wdes;
    repeat split; eauto.
Qed.

(** Sequencing when the first part prints nothing. *)
Lemma wp_bind0 {A B} (P : fp) (p : prog A) (k : A -> prog B) o R Q :
  wp P p o (fun a o' ev => ev = [] /\ R a o') ->
  (forall a o', R a o' -> wp P (k a) o' Q) ->
  wp P (bind p k) o Q.
Proof.
  intros W H. apply wp_bind. eapply wp_mono; [|exact W].
  cbn. intros a o' ev (-> & HR). cbn. apply H in HR.
  eapply wp_mono; [|exact HR]. auto.
Qed.

Lemma bind_run {A B} (p : prog A) (k : A -> prog B) : forall o,
  run (bind p k) o =
  match run p o with
  | ROk a o' ev =>
      match run (k a) o' with
      | ROk b o'' ev' => ROk b o'' (ev ++ ev')
      | RThrow m o'' ev' => RThrow m o'' (ev ++ ev')
      | RUB w => RUB w
      end
  | RThrow m o' ev => RThrow m o' ev
  | RUB w => RUB w
  end.
Proof.
  induction p; intros o; cbn [run bind]; auto.
  - destruct (run (k a) o); reflexivity.
  - destruct (oI o f); auto.
  - destruct (oB o f); auto.
  - destruct (oF o f); auto.
  - destruct (znth _ i) as [[v|]|]; auto.
  - destruct (znth _ i) as [[v|]|]; auto.
  - destruct (znth _ i) as [v|]; auto.
  - rewrite IHp. destruct (run p o); cbn; auto. destruct (run (k a) o0); reflexivity.
Qed.

(** ** Loops *)
Lemma wp_for_from {St} (P : fp) (body : Z -> St -> prog St) (Inv : Z -> St -> obj -> Prop) :
  forall n lo hi st o (Q : St -> obj -> list event -> Prop),
  Z.of_nat n = hi - lo ->
  Inv lo st o ->
  (forall i st o, lo <= i < hi -> Inv i st o ->
     wp P (body i st) o (fun st' o' ev => ev = [] /\ Inv (i + 1) st' o')) ->
  (forall st o, Inv hi st o -> Q st o []) ->
  wp P (for_from n lo st body) o Q.
Proof.
  induction n as [|n IH]; intros lo hi st o Q Hn HI Hb HQ; cbn [for_from].
  - cbn. apply HQ. replace hi with lo by lia. exact HI.
  - eapply wp_bind0 with (R := fun st' o' => Inv (lo + 1) st' o').
    + apply Hb; [lia|exact HI].
    + intros st' o' HI'. apply (IH (lo + 1) hi); auto; try lia.
      intros i s2 o2 Hi. apply Hb. lia.
Qed.

Lemma wp_for {St} (P : fp) (body : Z -> St -> prog St) (Inv : Z -> St -> obj -> Prop) :
  forall lo hi st o (Q : St -> obj -> list event -> Prop),
  lo <= hi ->
  Inv lo st o ->
  (forall i st o, lo <= i < hi -> Inv i st o ->
     wp P (body i st) o (fun st' o' ev => ev = [] /\ Inv (i + 1) st' o')) ->
  (forall st o, Inv hi st o -> Q st o []) ->
  wp P (for_ lo hi st body) o Q.
Proof.
  intros. unfold for_. eapply wp_for_from with (hi := hi); eauto. lia.
Qed.

(** The same with printed events. *)
Lemma wp_for_ev {St} (P : fp) (body : Z -> St -> prog St)
  (Inv : Z -> St -> obj -> list event -> Prop) :
  forall n lo hi st o ev0 (Q : St -> obj -> list event -> Prop),
  Z.of_nat n = hi - lo ->
  Inv lo st o ev0 ->
  (forall i st o ev, lo <= i < hi -> Inv i st o ev ->
     wp P (body i st) o (fun st' o' ev' => Inv (i + 1) st' o' (ev ++ ev'))) ->
  (forall st o ev, Inv hi st o (ev0 ++ ev) -> Q st o ev) ->
  wp P (for_from n lo st body) o Q.
Proof.
  induction n as [|n IH]; intros lo hi st o ev0 Q Hn HI Hb HQ; cbn [for_from].
  - cbn. apply HQ. rewrite app_nil_r. replace hi with lo by lia. exact HI.
  - apply wp_bind. eapply wp_mono; [|apply Hb; [|exact HI]; lia].
    cbn. intros st' o' ev' HI'. apply (IH (lo + 1) hi _ _ (ev0 ++ ev')); auto; try lia.
    + intros i s2 o2 e2 Hi. apply Hb. lia.
    + intros s2 o2 e2 H2. apply HQ. rewrite app_assoc. exact H2.
Qed.

(** A loop that never runs. *)
Lemma wp_for_empty {St} (P : fp) (body : Z -> St -> prog St) lo hi st o (Q : St -> obj -> list event -> Prop) :
  hi <= lo -> Q st o [] -> wp P (for_ lo hi st body) o Q.
Proof.
  intros H HQ. unfold for_. replace (Z.to_nat (hi - lo)) with O by lia. exact HQ.
Qed.

End Wp.

Arguments wp {S A} P p o Q.

(** ** Lists indexed by Z *)
Lemma znth_None {A} (l : list A) i : znth l i = None <-> i < 0 \/ Z.of_nat (List.length l) <= i.
Proof.
  unfold znth. destruct (Z.ltb_spec i 0).
  - split; auto.
  - rewrite nth_error_None. lia.
Qed.
Lemma znth_Some {A} (l : list A) i : (exists x, znth l i = Some x) <-> 0 <= i < Z.of_nat (List.length l).
Proof.
  destruct (znth l i) eqn:E.
  - split; [|eauto]. intros _.
    assert (~ (i < 0 \/ Z.of_nat (List.length l) <= i)) by (rewrite <- znth_None; congruence). lia.
  - apply znth_None in E. split; [intros (x & H); discriminate|lia].
Qed.
Lemma set_nth_length {A} (l : list A) : forall n x, List.length (set_nth l n x) = List.length l.
Proof. induction l; intros [|n] x; cbn; auto. Qed.
Lemma zset_length {A} (l : list A) i x : List.length (zset l i x) = List.length l.
Proof. apply set_nth_length. Qed.
Lemma set_nth_nth {A} (l : list A) : forall n k x,
  nth_error (set_nth l n x) k =
  if (n =? k)%nat then (match nth_error l k with Some _ => Some x | None => None end)
  else nth_error l k.
Proof.
  induction l as [|a l IH]; intros [|n] [|k] x; cbn; auto.
  - destruct (n =? k)%nat; auto.
Qed.
Lemma znth_zset_same {A} (l : list A) i x :
  0 <= i < Z.of_nat (List.length l) -> znth (zset l i x) i = Some x.
Proof.
  intros H. unfold znth, zset. destruct (Z.ltb_spec i 0); [lia|].
  rewrite set_nth_nth, Nat.eqb_refl.
  destruct (nth_error l (Z.to_nat i)) eqn:E; auto.
  apply nth_error_None in E. lia.
Qed.
Lemma znth_zset_other {A} (l : list A) i j x :
  0 <= i -> i <> j -> znth (zset l i x) j = znth l j.
Proof.
  intros H0 H. unfold znth, zset. destruct (Z.ltb_spec j 0); auto.
  rewrite set_nth_nth. destruct (Nat.eqb_spec (Z.to_nat i) (Z.to_nat j)); auto. lia.
Qed.
Lemma znth_repeat {A} (x : A) n i : 0 <= i < n -> znth (zrepeat x n) i = Some x.
Proof.
  intros H. unfold znth, zrepeat. destruct (Z.ltb_spec i 0); [lia|].
  apply nth_error_repeat. lia.
Qed.
Lemma zrepeat_length {A} (x : A) n : 0 <= n -> Z.of_nat (List.length (zrepeat x n)) = n.
Proof. intros. unfold zrepeat. rewrite repeat_length. lia. Qed.

(** ** Arrays with known contents *)

(** [vec_is a n g]: [a] is a vector of n elements, element i being [g i]. *)
Definition vec_is {T} (a : array T) (n : Z) (g : Z -> T) : Prop :=
  arows a = n /\ acols a = 1 /\ Z.of_nat (List.length (adata a)) = n /\
  forall i, 0 <= i < n -> znth (adata a) i = Some (Some (g i)).

(** [mat_is a r c g]: [a] is an r x c matrix, element (i,j) being [g i j]. *)
Definition mat_is {T} (a : array T) (r c : Z) (g : Z -> Z -> T) : Prop :=
  0 <= r /\ 0 <= c /\
  arows a = r /\ acols a = c /\ Z.of_nat (List.length (adata a)) = r * c /\
  forall i j, 0 <= i < r -> 0 <= j < c -> znth (adata a) (i + j * r) = Some (Some (g i j)).

Lemma flat_range r c i j : 0 <= i < r -> 0 <= j < c -> 0 <= i + j * r < r * c.
Proof. intros. nia. Qed.

Lemma flat_inj r i j i' j' :
  0 <= i < r -> 0 <= i' < r -> i + j * r = i' + j' * r -> i = i' /\ j = j'.
Proof.
  intros H H' E.
  assert (j = j').
  { destruct (Z.lt_trichotomy j j') as [L|[L|L]]; auto; nia. }
  subst. lia.
Qed.

Lemma mat_ext {T} (a : array T) r c g h :
  (forall i j, 0 <= i < r -> 0 <= j < c -> g i j = h i j) -> mat_is a r c g -> mat_is a r c h.
Proof.
  intros H (H1 & H2 & H3 & H4 & H5 & H6). repeat split; auto.
  intros i j Hi Hj. rewrite H6 by auto. now rewrite H.
Qed.
Lemma vec_ext {T} (a : array T) n g h :
  (forall i, 0 <= i < n -> g i = h i) -> vec_is a n g -> vec_is a n h.
Proof.
  intros H (H1 & H2 & H3 & H4). repeat split; auto.
  intros i Hi. rewrite H4 by auto. now rewrite H.
Qed.
Lemma vec_is_put {T} (a : array T) n g i x :
  0 <= i < n -> vec_is a n g -> vec_is (aput a i x) n (fun k => if k =? i then x else g k).
Proof.
  intros Hi (H1 & H2 & H3 & H4). unfold aput. repeat split; cbn; auto.
  - now rewrite zset_length.
  - intros k Hk. destruct (Z.eqb_spec k i).
    + subst. apply znth_zset_same. lia.
    + rewrite znth_zset_other by lia. auto.
Qed.
Lemma mat_is_put {T} (a : array T) r c g i j x :
  0 <= i < r -> 0 <= j < c -> mat_is a r c g ->
  mat_is (aput a (i + j * arows a) x) r c
    (fun k l => if (k =? i) && (l =? j) then x else g k l).
Proof.
  intros Hi Hj (H1 & H2 & H3 & H4 & H5 & H6). unfold aput. rewrite H3.
  pose proof (flat_range r c i j Hi Hj).
  repeat split; cbn; auto.
  - now rewrite zset_length.
  - intros k l Hk Hl.
    destruct (Z.eqb_spec k i); destruct (Z.eqb_spec l j); cbn.
    + subst. apply znth_zset_same. lia.
    + rewrite znth_zset_other; [auto|lia|]. intros E.
      apply flat_inj in E; lia.
    + rewrite znth_zset_other; [auto|lia|]. intros E.
      apply flat_inj in E; lia.
    + rewrite znth_zset_other; [auto|lia|]. intros E.
      apply flat_inj in E; lia.
Qed.
Lemma vec_is_zeros {T} (x : T) n : 0 <= n -> vec_is (mkArr n 1 (zrepeat (Some x) (n * 1))) n (fun _ => x).
Proof.
  intros. rewrite Z.mul_1_r. repeat split; cbn; auto.
  - now apply zrepeat_length.
  - intros. now apply znth_repeat.
Qed.
Lemma mat_is_zeros {T} (x : T) r c : 0 <= r -> 0 <= c ->
  mat_is (mkArr r c (zrepeat (Some x) (r * c))) r c (fun _ _ => x).
Proof.
  intros. repeat split; cbn; auto.
  - apply zrepeat_length. nia.
  - intros. apply znth_repeat. nia.
Qed.
Lemma vec_is_asize {T} (a : array T) n g : vec_is a n g -> asize a = n.
Proof. intros (H1 & H2 & _). unfold asize. rewrite H1, H2. lia. Qed.

(** Eigen's invariant: the block has rows*cols cells.  True of every reachable object. *)
Definition wf_arr {T} (a : array T) : Prop :=
  0 <= arows a /\ 0 <= acols a /\ Z.of_nat (List.length (adata a)) = arows a * acols a.
Record wf_obj {S} (o : obj S) : Prop := mkWf {
  wf_N : forall f, wf_arr (oN o f) /\ acols (oN o f) = 1;
  wf_A : forall f, wf_arr (oA o f)
}.
Lemma vec_is_wf {T} (a : array T) n g : vec_is a n g -> wf_arr a.
Proof. intros (H1 & H2 & H3 & _). unfold wf_arr. rewrite H1, H2, H3. lia. Qed.
Lemma mat_is_wf {T} (a : array T) r c g : mat_is a r c g -> wf_arr a.
Proof. intros (H1 & H2 & H3 & H4 & H5 & _). unfold wf_arr. rewrite H3, H4, H5. lia. Qed.

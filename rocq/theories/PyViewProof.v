(** Which memory run() and assignments leave in its place. *)
From Coq Require Import ZArith List String Bool Lia.
From Verif Require Import Scalar Prog Model Wp Func Step Spec FuncExt RunThms Py PyView.
Import ListNotations.
Local Open Scope Z_scope.
Local Arguments member_eq_dec : simpl never.

Ltac splits := repeat match goal with |- _ /\ _ => split end.
Section Cost.
Context {S : Scalar}.
Notation obj := (obj S).
Notation prog := (prog S).

Definition one (m x : member) : nat := if member_eq_dec x m then 1 else 0.
(** [p] assigns the member [x] at most [n x] times. *)
Fixpoint cost {A} (p : prog A) (n : member -> nat) : Prop :=
  match p with
  | Ret _ | Throw _ | UB _ => True
  | GetI _ k => forall v, cost (k v) n
  | SetI _ _ k => cost k n
  | GetB _ k => forall v, cost (k v) n
  | SetB _ _ k => cost k n
  | GetF _ k => forall v, cost (k v) n
  | SetF _ _ k => cost k n
  | GetN _ _ k => forall v, cost (k v) n
  | SizeN _ k => forall v, cost (k v) n
  | SetNArr f _ k => (1 <= n (inr f))%nat /\ cost k (fun x => (n x - one (inr f) x)%nat)
  | GetA _ _ k => forall v, cost (k v) n
  | PutA _ _ _ k => cost k n
  | DimA _ k => forall r c, cost (k r c) n
  | GetArr _ k => forall v, cost (k v) n
  | SetArr f _ k => (1 <= n (inl f))%nat /\ cost k (fun x => (n x - one (inl f) x)%nat)
  | Out _ k => cost k n
  end.
Lemma cost_mono {A} (p : prog A) : forall n n', cost p n -> (forall x, (n x <= n' x)%nat) -> cost p n'.
Proof.
  induction p; cbn; intros n n' X0 L; eauto.
  - destruct X0 as (H1 & H2). split; [specialize (L (inr f)); lia|]. eapply IHp; eauto. intros x. cbn. specialize (L x). lia.
  - destruct X0 as (H1 & H2). split; [specialize (L (inl f)); lia|]. eapply IHp; eauto. intros x. cbn. specialize (L x). lia.
Qed.
Definition plus2 (n m : member -> nat) : member -> nat := fun x => (n x + m x)%nat.
Lemma one_le m x (n : member -> nat) : (1 <= n m)%nat -> (one m x <= n x)%nat.
Proof. unfold one. destruct (member_eq_dec x m) as [->|]; lia. Qed.
Lemma cost_bind {A B} (p : prog A) (k : A -> prog B) : forall n m, cost p n -> (forall a, cost (k a) m) -> cost (bind p k) (plus2 n m).
Proof.
  induction p; cbn; intros n m X0 K; auto.
  - eapply cost_mono; [apply K|]. intros x. unfold plus2. lia.
  - destruct X0 as (H1 & H2). split; [unfold plus2; lia|]. eapply cost_mono; [apply IHp; eauto|].
    intros x. unfold plus2. pose proof (one_le (inr f) x n H1). lia.
  - destruct X0 as (H1 & H2). split; [unfold plus2; lia|]. eapply cost_mono; [apply IHp; eauto|].
    intros x. unfold plus2. pose proof (one_le (inl f) x n H1). lia.
Qed.
Definition none : member -> nat := fun _ => 0%nat.
Lemma cost_seq {A B} (p : prog A) (k : A -> prog B) n : cost p none -> (forall a, cost (k a) n) -> cost (bind p k) n.
Proof. intros H K. eapply cost_mono; [apply (cost_bind p k none n H K)|]. intros x. unfold plus2, none. lia. Qed.
Lemma cost_setarr {B} f v (k : unit -> prog B) n : (1 <= n (inl f))%nat -> cost (k tt) (fun x => (n x - one (inl f) x)%nat) -> cost (bind (setarr f v) k) n.
Proof. cbn. auto. Qed.
Lemma cost_setn {B} f v (k : unit -> prog B) n : (1 <= n (inr f))%nat -> cost (k tt) (fun x => (n x - one (inr f) x)%nat) -> cost (bind (setn f v) k) n.
Proof. cbn. auto. Qed.
Lemma cost_for {St} lo hi (st : St) body : (forall i s, cost (body i s) none) -> cost (for_ lo hi st body) none.
Proof.
  intros H. unfold for_. generalize (Z.to_nat (hi - lo)). intros n. revert lo st. induction n as [|n IH]; intros i st; cbn; [exact I|].
  apply cost_seq; auto.
Qed.

(** After at most one assignment of [m] the block tells whether the size has changed. *)
Lemma track_next {A} (p : prog A) : forall (o : obj) b, blkNext b <= blkNext (track p o b).
Proof.
  assert (R : forall b m (c : bool), blkNext b <= blkNext (if c then b else realloc b m)) by (intros b m []; cbn; lia).
  induction p; cbn; intros o b; try lia; auto;
    try (match goal with |- context [match ?e with _ => _ end] => destruct e as [[]|] end; auto; lia);
    try (match goal with |- context [match ?e with _ => _ end] => destruct e end; auto; lia).
  - etransitivity; [apply R|apply IHp].
  - etransitivity; [apply R|apply IHp].
Qed.
Lemma track_fits {A} (p : prog A) : forall (o : obj) b, fits b -> fits (track p o b).
Proof.
  assert (R : forall b m (c : bool), fits b -> fits (if c then b else realloc b m)).
  { intros b m c H. destruct c; auto. intros x. cbn. destruct (member_eq_dec x m); [lia|]. specialize (H x). lia. }
  induction p; cbn; intros o b Hb; auto;
    try (match goal with |- context [match ?e with _ => _ end] => destruct e as [[]|] end; auto);
    try (match goal with |- context [match ?e with _ => _ end] => destruct e end; auto).
Qed.
Lemma track_none {A} (p : prog A) m : forall (o : obj) b n, cost p n -> n m = 0%nat -> blk (track p o b) m = blk b m.
Proof.
  induction p; cbn; intros o b n C E; auto;
    try (match goal with |- context [match ?e with _ => _ end] => destruct e as [[]|] end; eauto; fail);
    try (match goal with |- context [match ?e with _ => _ end] => destruct e end; eauto; fail); eauto.
  - destruct C as (C1 & C2). assert (N : m <> inr f) by (intros ->; lia).
    rewrite (IHp _ _ _ C2) by lia. destruct (_ =? _); auto. cbn. destruct (member_eq_dec m (inr f)); congruence.
  - destruct C as (C1 & C2). assert (N : m <> inl f) by (intros ->; lia).
    rewrite (IHp _ _ _ C2) by lia. destruct (_ =? _); auto. cbn. destruct (member_eq_dec m (inl f)); congruence.
Qed.
Lemma size_updA (o : obj) f v m : m <> inl f -> size (updA o f v) m = size o m.
Proof. destruct m as [g|g]; cbn; auto. destruct (afield_eq_dec g f) as [->|]; auto. congruence. Qed.
Lemma size_updN (o : obj) f v m : m <> inr f -> size (updN o f v) m = size o m.
Proof. destruct m as [g|g]; cbn; auto. destruct (nfield_eq_dec g f) as [->|]; auto. congruence. Qed.
Lemma size_put (o : obj) f i x m : size (updA o f (aput (oA o f) i x)) m = size o m.
Proof. destruct m as [g|g]; cbn; auto. destruct (afield_eq_dec g f) as [->|]; auto. Qed.
Lemma emit_inv {A} e (r : res S A) a o ev : emit e r = ROk a o ev -> exists ev', r = ROk a o ev'.
Proof. destruct r; cbn; intros H; inversion H; eauto. Qed.
Lemma size_none {A} (p : prog A) m : forall (o o' : obj) a ev n, cost p n -> n m = 0%nat -> run p o = ROk a o' ev -> size o' m = size o m.
Proof.
  induction p; cbn; intros o o' a0 ev n C E R; try discriminate R; eauto;
    try (match type of R with (match ?e with _ => _ end) = _ => destruct e as [[]|] end; try discriminate R; eauto; fail);
    try (match type of R with (match ?e with _ => _ end) = _ => destruct e end; try discriminate R; eauto; fail).
  - now injection R as <- <- <-.
  - apply (IHp _ _ _ _ _ C E R).
  - apply (IHp _ _ _ _ _ C E R).
  - apply (IHp _ _ _ _ _ C E R).
  - destruct C as (C1 & C2). rewrite (IHp _ _ _ _ _ C2) with (2 := R) by lia. apply size_updN. intros ->. lia.
  - destruct (znth (adata (oA o f)) i); [|discriminate]. rewrite (IHp _ _ _ _ _ C E R). apply size_put.
  - destruct C as (C1 & C2). rewrite (IHp _ _ _ _ _ C2) with (2 := R) by lia. apply size_updA. intros ->. lia.
  - apply emit_inv in R. destruct R as (ev' & R). eauto.
Qed.
Lemma track_once {A} (p : prog A) m : forall (o o' : obj) b a ev n, fits b -> cost p n -> (n m <= 1)%nat -> run p o = ROk a o' ev ->
  (blk (track p o b) m = blk b m <-> size o' m = size o m).
Proof.
  induction p; cbn; intros o o' b a0 ev n Hb C E R; try discriminate R; eauto;
    try (match type of R with (match ?e with _ => _ end) = _ => destruct e as [[]|] end; try discriminate R; eauto; fail);
    try (match type of R with (match ?e with _ => _ end) = _ => destruct e end; try discriminate R; eauto; fail).
  - injection R as <- <- <-. tauto.
  - apply (IHp _ _ _ _ _ _ Hb C E R).
  - apply (IHp _ _ _ _ _ _ Hb C E R).
  - apply (IHp _ _ _ _ _ _ Hb C E R).
  - destruct C as (C1 & C2). destruct (member_eq_dec m (inr f)) as [->|Nm].
    + assert (Z1 : (n (inr f) - one (inr f) (inr f) = 0)%nat) by (unfold one; destruct (member_eq_dec _ _); [lia|congruence]).
      rewrite (track_none p _ _ _ _ C2 Z1), (size_none p _ _ _ _ _ _ C2 Z1 R). cbn. destruct (nfield_eq_dec f f); [|congruence].
      destruct (Z.eqb_spec (asize v) (asize (oN o f))); [tauto|]. cbn. destruct (member_eq_dec _ _); [|congruence]. specialize (Hb (inr f)). lia.
    + assert (Hb' : fits (if asize v =? asize (oN o f) then b else realloc b (inr f))).
      { destruct (_ =? _); auto. intros x. cbn. destruct (member_eq_dec x _); [lia|]. specialize (Hb x). lia. }
      assert (E1 : (n m - one (inr f) m <= 1)%nat) by lia.
      pose proof (IHp _ _ _ _ _ _ Hb' C2 E1 R) as X. rewrite size_updN in X by auto.
      replace (blk (if asize v =? asize (oN o f) then b else realloc b (inr f)) m) with (blk b m) in X; [exact X|].
      destruct (_ =? _); auto. cbn. destruct (member_eq_dec _ _); congruence.
  - destruct (znth (adata (oA o f)) i); [|discriminate]. pose proof (IHp _ _ _ _ _ _ Hb C E R) as X. now rewrite size_put in X.
  - destruct C as (C1 & C2). destruct (member_eq_dec m (inl f)) as [->|Nm].
    + assert (Z1 : (n (inl f) - one (inl f) (inl f) = 0)%nat) by (unfold one; destruct (member_eq_dec _ _); [lia|congruence]).
      rewrite (track_none p _ _ _ _ C2 Z1), (size_none p _ _ _ _ _ _ C2 Z1 R). cbn. destruct (afield_eq_dec f f); [|congruence].
      destruct (Z.eqb_spec (asize v) (asize (oA o f))); [tauto|]. cbn. destruct (member_eq_dec _ _); [|congruence]. specialize (Hb (inl f)). lia.
    + assert (Hb' : fits (if asize v =? asize (oA o f) then b else realloc b (inl f))).
      { destruct (_ =? _); auto. intros x. cbn. destruct (member_eq_dec x _); [lia|]. specialize (Hb x). lia. }
      assert (E1 : (n m - one (inl f) m <= 1)%nat) by lia.
      pose proof (IHp _ _ _ _ _ _ Hb' C2 E1 R) as X. rewrite size_updA in X by auto.
      replace (blk (if asize v =? asize (oA o f) then b else realloc b (inl f)) m) with (blk b m) in X; [exact X|].
      destruct (_ =? _); auto. cbn. destruct (member_eq_dec _ _); congruence.
  - apply emit_inv in R. destruct R as (ev' & R). eauto.
Qed.
End Cost.

(** ** run() *)
Section Run.
Variable S : Scalar.
Notation prog := (prog S).

Lemma c_int z : cost (int_ (S := S) z) none. Proof. unfold int_. destruct (in_int z); exact I. Qed.
Lemma c_idiv a b : cost (idiv (S := S) a b) none. Proof. unfold idiv. destruct (b =? 0); [exact I|apply c_int]. Qed.
Lemma c_irem a b : cost (irem (S := S) a b) none. Proof. unfold irem. destruct (b =? 0); exact I. Qed.
Lemma c_vget {T} (a : array T) i : cost (vget (S := S) a i) none. Proof. unfold vget. destruct (znth _ _) as [[]|]; exact I. Qed.
Lemma c_vset {T} (a : array T) i x : cost (vset (S := S) a i x) none. Proof. unfold vset. destruct (znth _ _); exact I. Qed.
Lemma c_mget {T} (a : array T) i j : cost (mget (S := S) a i j) none. Proof. unfold mget. destruct (inside _ _ _ _); [apply c_vget|exact I]. Qed.
Lemma c_mset {T} (a : array T) i j x : cost (mset (S := S) a i j x) none. Proof. unfold mset. destruct (inside _ _ _ _); [apply c_vset|exact I]. Qed.
Lemma c_vinc a i x : cost (vinc (S := S) a i x) none. Proof. unfold vinc. apply cost_seq; [apply c_vget|intro; apply c_vset]. Qed.
Lemma c_zeros {T} (z : T) r c : cost (zeros (S := S) z r c) none. Proof. unfold zeros. destruct (_ || _); exact I. Qed.
Lemma c_resize {T} (a : array T) r c : cost (resize (S := S) a r c) none. Proof. unfold resize. destruct (_ || _); [exact I|]. destruct (_ =? _); exact I. Qed.
Local Hint Resolve c_int c_idiv c_irem c_vget c_vset c_mget c_mset c_vinc c_zeros c_resize : cost.
Ltac go := repeat first
  [ progress cbn beta
  | lazymatch goal with
    | |- forall _, _ => intro
    | |- True => exact I
    | |- cost (Ret _) _ => exact I
    | |- cost (bind _ _) none => apply cost_seq
    | |- cost (for_ _ _ _ _) none => apply cost_for
    | |- cost (match ?x with _ => _ end) _ => destruct x
    | |- cost (geti _) _ => cbn | |- cost (getb _) _ => cbn | |- cost (getf _) _ => cbn
    | |- cost (getn _ _) _ => cbn | |- cost (getv _ _) _ => cbn | |- cost (sizen _) _ => cbn
    | |- cost (getarr _) _ => cbn
    | |- cost (seti _ _) _ => exact I | |- cost (setb _ _) _ => exact I | |- cost (setf _ _) _ => exact I
    | |- cost (putv _ _ _) _ => exact I | |- cost (out _ _ _) _ => exact I
    | |- cost (getm _ _ _) _ => unfold getm; cbn; intros ? ?; destruct (inside _ _ _ _); cbn
    | |- cost (putm _ _ _ _) _ => unfold putm; cbn; intros ? ?; destruct (inside _ _ _ _); cbn
    | |- cost (iadd _ _) _ => apply c_int | |- cost (isub _ _) _ => apply c_int | |- cost (imul _ _) _ => apply c_int
    | |- cost (iabs _) _ => apply c_int
    | |- cost (vget _ _) _ => apply c_vget | |- cost (mget _ _ _) _ => apply c_mget | |- cost (mset _ _ _ _) _ => apply c_mset
    | |- _ => solve [auto with cost]
    end ].
Lemma c_trig th ze t a b c : cost (init_trig S th ze t a b c) none.
Proof. unfold init_trig, it_first, it_second, it_rec. go. Qed.
Lemma c_modes a b c d : cost (init_modes S a b c d) none.
Proof. unfold init_modes. go. Qed.
Lemma c_grid a b c d : cost (init_grid S a b c d) none.
Proof. unfold init_grid. go. Qed.
Lemma c_transp a b c d e f : cost (transp S a b c d e f) none.
Proof. unfold transp. go. Qed.
Lemma c_rz a b c d e f : cost (vcoords_rz S a b c d e f) none.
Proof. unfold vcoords_rz. go. Qed.
Lemma c_w a b c d e f g h : cost (vcoords_w S a b c d e f g h) none.
Proof. unfold vcoords_w. go. Qed.
Lemma c_vexpr n v e : (forall j, cost (e j) none) -> cost (vexpr S n v e) none.
Proof. intros H. unfold vexpr. apply cost_for; intros. apply cost_seq; [apply H|intro; apply c_vset]. Qed.
Lemma c_har a b c d e f : cost (harfun S a b c d e f) none.
Proof. unfold harfun. repeat first [apply c_vexpr | progress go]. Qed.
Lemma c_incs i j l : cost (incs S i j l) none.
Proof. induction l as [|[f x] l IH]; cbn [incs]; [exact I|]. unfold incm. go. Qed.
Local Hint Resolve c_trig c_modes c_grid c_transp c_rz c_w c_har c_incs : cost.
Lemma c_half a b c d e : cost (half_weights S a b c d e) none.
Proof. unfold half_weights, halve. go. Qed.
Lemma c_acc a b c d e f g h i j k l m : cost (accumulate S a b c d e f g h i j k l m) none.
Proof. unfold accumulate. go. Qed.
Local Hint Resolve c_half c_acc : cost.
Lemma c_check a b c d e f : cost (check_accuracy S a b c d e f) none.
Proof. unfold check_accuracy, check_indices, check_sum, at4. go. Qed.
Lemma c_angles a b c d : cost (surface_angles S a b c d) none.
Proof. unfold surface_angles. go. Qed.
Local Hint Resolve c_check c_angles : cost.
Lemma c_surface j : cost (surface_solve S j) none.
Proof. unfold surface_solve. repeat first [apply c_vexpr | progress go]. Qed.

Definition once : member -> nat := fun _ => 1%nat.
Ltac lift_ := first [apply cost_setarr; [vm_compute; lia|] | apply cost_setn; [vm_compute; lia|] | apply cost_seq; [go|] ].
Lemma c_init : cost (init S) once.
Proof.
  unfold init. repeat (cbn beta; first [lift_ | lazymatch goal with |- cost (let (_, _) := ?x in _) _ => destruct x end]; try intro).
  match goal with |- cost (if ?x then _ else _) _ => destruct x end.
  - repeat lift_. all: exact I.
  - exact I.
Qed.
Lemma c_bx_run : cost (bx_run S) once.
Proof.
  unfold bx_run. eapply cost_mono; [apply cost_bind with (n := once) (m := none)|intros x; vm_compute; lia].
  - unfold run_head. apply cost_seq; [go|intro]. apply cost_seq; [go|intro].
    eapply cost_mono; [apply cost_bind with (n := once) (m := none); [apply c_init|go]|intros x; vm_compute; lia].
  - intros. apply cost_seq; [go|intro]. apply cost_for. intros. apply c_surface.
Qed.
Lemma c_call c p : call_prog c = Some p -> cost (S := S) p once.
Proof.
  destruct c; cbn; try discriminate; try (destruct (rw_int f && in_int v)); try (destruct (rw_bool f)); try (destruct (rw_flt f));
    try (destruct (rw_ints f)); try (destruct (rw_arr f && _)); intros E; try discriminate; injection E as <-; cbn;
    try exact I; try (split; [apply le_n|exact I]).
  apply c_bx_run.
Qed.
End Run.

(** ** Sequences of calls *)
Section Seq.
Variable S : Scalar.
Notation obj := (obj S).
Lemma calls_next l os (o : obj) b o' b' : calls l os o b o' b' -> fits b -> fits b' /\ blkNext b <= blkNext b'.
Proof.
  induction 1 as [o b|c p l os o b o1 ev o2 b2 Hc Hr Hs IH]; intros Hf; [split; auto; lia|].
  destruct (IH (track_fits p o b Hf)) as (A & B). split; auto. pose proof (track_next p o b). lia.
Qed.
Lemma track_new {A} (p : prog S A) m : forall (o : obj) b, fits b -> blk (track p o b) m = blk b m \/ blkNext b <= blk (track p o b) m.
Proof.
  assert (R : forall b m0 (c : bool), fits b -> let b' := if c then b else realloc b m0 in fits b' /\ blkNext b <= blkNext b' /\ (blk b' m = blk b m \/ blkNext b <= blk b' m)).
  { intros b m0 c H. destruct c; cbn; [splits; auto; lia|]. splits; [|lia|].
    - intros x. cbn. destruct (member_eq_dec x m0); [lia|]. specialize (H x). lia.
    - destruct (member_eq_dec m m0); auto. right. lia. }
  induction p; cbn; intros o b Hb; auto;
    try (match goal with |- context [match ?e with _ => _ end] => destruct e as [[]|] end; auto; fail);
    try (match goal with |- context [match ?e with _ => _ end] => destruct e end; auto; fail).
  - destruct (R b (inr f) (asize v =? asize (oN o f)) Hb) as (R1 & R2 & R3). destruct (IHp (updN o f v) _ R1) as [E|E]; [|right; lia].
    rewrite E. destruct R3; auto.
  - destruct (R b (inl f) (asize v =? asize (oA o f)) Hb) as (R1 & R2 & R3). destruct (IHp (updA o f v) _ R1) as [E|E]; [|right; lia].
    rewrite E. destruct R3; auto.
Qed.
Lemma calls_new l os (o : obj) b o' b' m : calls l os o b o' b' -> fits b -> blk b' m = blk b m \/ blkNext b <= blk b' m.
Proof.
  induction 1 as [o b|c p l os o b o1 ev o2 b2 Hc Hr Hs IH]; intros Hf; [auto|].
  pose proof (IH (track_fits p o b Hf)) as A. pose proof (track_new p m o b Hf) as B. pose proof (track_next p o b). lia.
Qed.
Theorem calls_alive l os (o : obj) b o' b' m : calls l os o b o' b' -> fits b ->
  (blk b' m = blk b m <-> Forall (fun q => size q m = size o m) os).
Proof.
  induction 1 as [o b|c p l os o b o1 ev o2 b2 Hc Hr Hs IH]; intros Hf; [split; auto|].
  pose proof (track_once p m o o1 b tt ev once Hf (c_call S c p Hc) (le_n _) Hr) as T.
  pose proof (track_fits p o b Hf) as Hf1. specialize (IH Hf1). split.
  - intros E. assert (E1 : blk (track p o b) m = blk b m).
    { destruct (track_new p m o b Hf) as [X|X]; auto. pose proof (calls_new _ _ _ _ _ _ m Hs Hf1) as Y. specialize (Hf m). specialize (Hf1 m).
      pose proof (track_next p o b). lia. }
    rewrite E1 in IH. apply T in E1. constructor; auto. rewrite <- E1. now apply IH.
  - intros H. inversion H as [|x y H1 H2]; subst. apply T in H1 as E1. rewrite E1 in IH. apply IH. rewrite H1. exact H2.
Qed.
End Seq.

(** C62 for all calls. *)
From Coq Require Import ZArith List String Bool Lia.
From Verif Require Import Scalar Prog Model Wp Func Step Spec FuncExt RunThms Vmec Nc NcModel Py PyView PyViewProof PyViewThms PyMem Frame FrameThms.
Import ListNotations.
Local Open Scope Z_scope.
Local Arguments member_eq_dec : simpl never.

Section Chg.
Context {S : Scalar}.
Notation obj := (obj S).
Notation prog := (prog S).
Notation io := (io S).
Notation world := (world S).

(** How often [m] is given another number of elements *)
Fixpoint chg {A} (p : prog A) (o : obj) (m : member) : nat :=
  match p with
  | Ret _ | Throw _ | UB _ => 0
  | GetI f k => match oI o f with Some v => chg (k v) o m | None => 0 end
  | SetI f v k => chg k (updI o f (Some v)) m
  | GetB f k => match oB o f with Some v => chg (k v) o m | None => 0 end
  | SetB f v k => chg k (updB o f (Some v)) m
  | GetF f k => match oF o f with Some v => chg (k v) o m | None => 0 end
  | SetF f v k => chg k (updF o f (Some v)) m
  | GetN f i k => match znth (adata (oN o f)) i with Some (Some v) => chg (k v) o m | _ => 0 end
  | SizeN f k => chg (k (asize (oN o f))) o m
  | SetNArr f v k => (if (asize v =? asize (oN o f))%Z then 0 else one (inr f) m) + chg k (updN o f v) m
  | GetA f i k => match znth (adata (oA o f)) i with Some (Some v) => chg (k v) o m | _ => 0 end
  | PutA f i x k => match znth (adata (oA o f)) i with Some _ => chg k (updA o f (aput (oA o f) i x)) m | None => 0 end
  | DimA f k => chg (k (arows (oA o f)) (acols (oA o f))) o m
  | GetArr f k => chg (k (oA o f)) o m
  | SetArr f v k => (if (asize v =? asize (oA o f))%Z then 0 else one (inl f) m) + chg k (updA o f v) m
  | Out _ k => chg k o m
  end%nat.
Lemma cost_chg {A} (p : prog A) : forall (o : obj) n m, cost p n -> (chg p o m <= n m)%nat.
Proof.
  induction p; cbn; intros o n m C; try lia; auto;
    try (match goal with |- context [match ?e with _ => _ end] => destruct e as [[]|] end; auto; lia);
    try (match goal with |- context [match ?e with _ => _ end] => destruct e end; auto; lia).
  - destruct C as (C1 & C2). pose proof (IHp (updN o f v) _ m C2) as X. cbn in X. pose proof (one_le (inr f) m n C1). destruct (_ =? _); lia.
  - destruct C as (C1 & C2). pose proof (IHp (updA o f v) _ m C2) as X. cbn in X. pose proof (one_le (inl f) m n C1). destruct (_ =? _); lia.
Qed.
Lemma chg_bind {A B} (p : prog A) (k : A -> prog B) m : forall o : obj,
  chg (bind p k) o m = (chg p o m + match run p o with ROk a o' _ => chg (k a) o' m | _ => 0 end)%nat.
Proof.
  induction p; cbn; intros o; auto;
    try (match goal with |- context [match ?e with _ => _ end] => destruct e as [[]|] end; auto; fail);
    try (match goal with |- context [match ?e with _ => _ end] => destruct e end; auto; fail).
  - rewrite IHp. lia.
  - rewrite IHp. lia.
  - rewrite IHp. f_equal. destruct (run p o); reflexivity.
Qed.
(** the object at the end *)
Definition last {A} (r : res S A) : option obj := match r with ROk _ o _ | RThrow _ o _ => Some o | RUB _ => None end.
Lemma last_emit {A} e (r : res S A) : last (emit e r) = last r. Proof. destruct r; reflexivity. Qed.
Lemma chg_none {A} (p : prog A) m : forall (o o' : obj) b, chg p o m = 0%nat -> last (run p o) = Some o' ->
  size o' m = size o m /\ blk (track p o b) m = blk b m.
Proof.
  induction p; cbn; intros o o' b0 C R; try discriminate R; try (injection R as <-; auto; fail); eauto;
    try (match type of R with last (match ?e with _ => _ end) = _ => destruct e as [[]|] end; try discriminate R; eauto; fail);
    try (match type of R with last (match ?e with _ => _ end) = _ => destruct e end; try discriminate R; eauto; fail).
  - apply (IHp _ _ b0 C R).
  - apply (IHp _ _ b0 C R).
  - apply (IHp _ _ b0 C R).
  - assert (C2 : chg p (updN o f v) m = 0%nat) by lia.
    destruct (IHp _ _ (if asize v =? asize (oN o f) then b0 else realloc b0 (inr f)) C2 R) as (X & Y). rewrite X, Y.
    destruct (member_eq_dec m (inr f)) as [->|Nm].
    + unfold one in C. destruct (member_eq_dec _ _); [|congruence]. destruct (Z.eqb_spec (asize v) (asize (oN o f))); [|lia].
      cbn. destruct (nfield_eq_dec f f); [|congruence]. auto.
    + split; [now apply size_updN|]. destruct (_ =? _); auto. cbn. destruct (member_eq_dec _ _); congruence.
  - destruct (znth (adata (oA o f)) i); [|discriminate R]. destruct (IHp _ _ b0 C R) as (X & Y). split; auto. rewrite X. apply size_put.
  - assert (C2 : chg p (updA o f v) m = 0%nat) by lia.
    destruct (IHp _ _ (if asize v =? asize (oA o f) then b0 else realloc b0 (inl f)) C2 R) as (X & Y). rewrite X, Y.
    destruct (member_eq_dec m (inl f)) as [->|Nm].
    + unfold one in C. destruct (member_eq_dec _ _); [|congruence]. destruct (Z.eqb_spec (asize v) (asize (oA o f))); [|lia].
      cbn. destruct (afield_eq_dec f f); [|congruence]. auto.
    + split; [now apply size_updA|]. destruct (_ =? _); auto. cbn. destruct (member_eq_dec _ _); congruence.
  - rewrite last_emit in R. eauto.
Qed.
Lemma chg_once {A} (p : prog A) m : forall (o o' : obj) b, fits b -> (chg p o m <= 1)%nat -> last (run p o) = Some o' ->
  (blk (track p o b) m = blk b m <-> size o' m = size o m).
Proof.
  induction p; cbn; intros o o' b0 Hb C R; try discriminate R; try (injection R as <-; tauto); eauto;
    try (match type of R with last (match ?e with _ => _ end) = _ => destruct e as [[]|] end; try discriminate R; eauto; fail);
    try (match type of R with last (match ?e with _ => _ end) = _ => destruct e end; try discriminate R; eauto; fail).
  - apply (IHp _ _ b0 Hb C R).
  - apply (IHp _ _ b0 Hb C R).
  - apply (IHp _ _ b0 Hb C R).
  - assert (Hb' : fits (if asize v =? asize (oN o f) then b0 else realloc b0 (inr f))).
    { destruct (_ =? _); auto. intros x. cbn. destruct (member_eq_dec x _); [lia|]. specialize (Hb x). lia. }
    destruct (member_eq_dec m (inr f)) as [->|Nm].
    + unfold one in C. destruct (member_eq_dec _ _); [|congruence]. destruct (Z.eqb_spec (asize v) (asize (oN o f))) as [E|E].
      * rewrite (IHp _ _ b0 Hb C R). cbn. destruct (nfield_eq_dec f f); [|congruence]. now rewrite E.
      * destruct (chg_none p (inr f) (updN o f v) _ (realloc b0 (inr f)) ltac:(lia) R) as (X & Y). rewrite X, Y. cbn.
        destruct (nfield_eq_dec f f); [|congruence]. destruct (member_eq_dec _ _); [|congruence]. specialize (Hb (inr f)). split; intros G; [exfalso; lia|exfalso; apply E; exact G].
    + assert (C2 : (chg p (updN o f v) m <= 1)%nat) by lia. pose proof (IHp _ _ _ Hb' C2 R) as X. rewrite size_updN in X by auto.
      replace (blk (if asize v =? asize (oN o f) then b0 else realloc b0 (inr f)) m) with (blk b0 m) in X; [exact X|].
      destruct (_ =? _); auto. cbn. destruct (member_eq_dec _ _); congruence.
  - destruct (znth (adata (oA o f)) i); [|discriminate R]. pose proof (IHp _ _ b0 Hb C R) as X. now rewrite size_put in X.
  - assert (Hb' : fits (if asize v =? asize (oA o f) then b0 else realloc b0 (inl f))).
    { destruct (_ =? _); auto. intros x. cbn. destruct (member_eq_dec x _); [lia|]. specialize (Hb x). lia. }
    destruct (member_eq_dec m (inl f)) as [->|Nm].
    + unfold one in C. destruct (member_eq_dec _ _); [|congruence]. destruct (Z.eqb_spec (asize v) (asize (oA o f))) as [E|E].
      * rewrite (IHp _ _ b0 Hb C R). cbn. destruct (afield_eq_dec f f); [|congruence]. now rewrite E.
      * destruct (chg_none p (inl f) (updA o f v) _ (realloc b0 (inl f)) ltac:(lia) R) as (X & Y). rewrite X, Y. cbn.
        destruct (afield_eq_dec f f); [|congruence]. destruct (member_eq_dec _ _); [|congruence]. specialize (Hb (inl f)). split; intros G; [exfalso; lia|exfalso; apply E; exact G].
    + assert (C2 : (chg p (updA o f v) m <= 1)%nat) by lia. pose proof (IHp _ _ _ Hb' C2 R) as X. rewrite size_updA in X by auto.
      replace (blk (if asize v =? asize (oA o f) then b0 else realloc b0 (inl f)) m) with (blk b0 m) in X; [exact X|].
      destruct (_ =? _); auto. cbn. destruct (member_eq_dec _ _); congruence.
  - rewrite last_emit in R. eauto.
Qed.

(** ** Steps *)
Fixpoint chgs {A} (d : steps S A) (w : world) (m : member) : nat :=
  match d with
  | DBind p k => (chgs p w m + match perform p w with IOk a w' => chgs (k a) w' m | _ => 0 end)%nat
  | DLift p => chg p (wO w) m
  | DLib _ => 0%nat
  end.
Definition still {A} (p : io A) : Prop := forall w m,
  match p w with IOk _ w' => size (wO w') m = size (wO w) m | IThrow _ w' => size (wO w') m = size (wO w) m | _ => True end.
Fixpoint proper {A} (d : steps S A) : Prop :=
  match d with
  | DBind p k => proper p /\ forall a, proper (k a)
  | DLift _ => True
  | DLib p => still p
  end.
Definition wlast {A} (r : ires S A) : option world := match r with IOk _ w | IThrow _ w => Some w | _ => None end.
Lemma lift_last {A} (p : prog A) w w' : wlast (lift p w) = Some w' -> last (run p (wO w)) = Some (wO w').
Proof. unfold lift. destruct (run p (wO w)); cbn; intros H; inversion H; reflexivity. Qed.
Lemma track_all_fits {A} (d : steps S A) : forall w b, fits b -> fits (track_all d w b) /\ blkNext b <= blkNext (track_all d w b).
Proof.
  induction d; cbn; intros w b Hb.
  - destruct (IHd w b Hb) as (F1 & N1). destruct (perform d w); auto. destruct (H a w0 _ F1) as (F2 & N2). split; [exact F2|lia].
  - split; [now apply track_fits|apply track_next].
  - split; [exact Hb|lia].
Qed.
Lemma track_all_new {A} (d : steps S A) m : forall w b, fits b -> blk (track_all d w b) m = blk b m \/ blkNext b <= blk (track_all d w b) m.
Proof.
  induction d; cbn; intros w b Hb; [|now apply track_new|auto].
  destruct (track_all_fits d w b Hb) as (F1 & N1). pose proof (IHd w b Hb) as X. destruct (perform d w); auto.
  pose proof (H a w0 _ F1) as Y. lia.
Qed.
Lemma chgs_none {A} (d : steps S A) m : forall w w' b, proper d -> chgs d w m = 0%nat -> wlast (perform d w) = Some w' ->
  size (wO w') m = size (wO w) m /\ blk (track_all d w b) m = blk b m.
Proof.
  induction d; cbn; intros w w' b P C R.
  - destruct P as (P1 & P2). unfold ibind in R. destruct (perform d w) as [a w1|e w1|y|w1] eqn:E; cbn in R; try discriminate.
    + assert (C1 : chgs d w m = 0%nat) by lia. assert (C2 : chgs (k a) w1 m = 0%nat) by lia.
      destruct (IHd w w1 b P1 C1) as (X & Y); [now rewrite E|]. destruct (H a w1 w' (track_all d w b) (P2 a) C2 R) as (X2 & Y2).
      split; congruence.
    + injection R as <-. apply (IHd w w1 b P1); [lia|now rewrite E].
  - apply chg_none; auto. now apply lift_last.
  - split; auto. specialize (P w m). destruct (p w); cbn in R; try discriminate; injection R as <-; exact P.
Qed.
Lemma chgs_once {A} (d : steps S A) m : forall w w' b, fits b -> proper d -> (chgs d w m <= 1)%nat -> wlast (perform d w) = Some w' ->
  (blk (track_all d w b) m = blk b m <-> size (wO w') m = size (wO w) m).
Proof.
  induction d; cbn; intros w w' b Hb P C R.
  - destruct P as (P1 & P2). unfold ibind in R. destruct (perform d w) as [a w1|e w1|y|w1] eqn:E; cbn in R; try discriminate.
    + destruct (track_all_fits d w b Hb) as (F1 & N1).
      destruct (Nat.eq_dec (chgs d w m) 0) as [C1|C1].
      * destruct (chgs_none d m w w1 b P1 C1) as (X & Y); [now rewrite E|]. assert (C2 : (chgs (k a) w1 m <= 1)%nat) by lia.
        pose proof (H a w1 w' _ F1 (P2 a) C2 R) as Z. rewrite Y, X in Z. exact Z.
      * assert (C2 : chgs (k a) w1 m = 0%nat) by lia. destruct (chgs_none (k a) m w1 w' (track_all d w b) (P2 a) C2 R) as (X & Y).
        rewrite X, Y. apply IHd; auto; [lia|now rewrite E].
    + injection R as <-. apply IHd; auto; [lia|now rewrite E].
  - apply chg_once; auto. now apply lift_last.
  - specialize (P w m). destruct (p w); cbn in R; try discriminate; injection R as <-; tauto.
Qed.
End Chg.

(** ** Programs *)
Section Progs.
Variable S : Scalar.
Notation obj := (obj S).
Notation prog := (prog S).
Notation io := (io S).
Notation world := (world S).
Definition times (l : list member) (m : member) : nat := count_occ member_eq_dec l m.
Definition limit {A} (p : prog A) (l : list member) : Prop := forall o m, (chg p o m <= times l m)%nat.
Lemma limit_cost {A} (p : prog A) : cost p none -> limit p [].
Proof. intros H o m. exact (cost_chg p o none m H). Qed.
Lemma times_one f : forall m, times [f] m = one f m.
Proof. intros m. unfold times, one. cbn. destruct (member_eq_dec f m), (member_eq_dec m f); congruence. Qed.
Lemma limit_one {A} (p : prog A) f : cost p (one f) -> limit p [f].
Proof. intros H o m. rewrite times_one. now apply cost_chg. Qed.
Lemma times_app l l' m : times (l ++ l') m = (times l m + times l' m)%nat.
Proof. unfold times. induction l as [|x l IH]; cbn; auto. destruct (member_eq_dec x m); cbn; rewrite IH; lia. Qed.
Lemma limit_bind {A B} (p : prog A) (k : A -> prog B) l l' : limit p l -> (forall a, limit (k a) l') -> limit (bind p k) (l ++ l').
Proof.
  intros H K o m. rewrite chg_bind, times_app. specialize (H o m). destruct (run p o) as [a o'|e o'|y]; [|lia|lia]. specialize (K a o' m). lia.
Qed.
Lemma limit_le {A} (p : prog A) l l' : limit p l -> (forall m, (times l m <= times l' m)%nat) -> limit p l'.
Proof. intros H L o m. specialize (H o m). specialize (L m). lia. Qed.

(** What programs return *)
Definition gives {A} (p : prog A) (P : A -> Prop) : Prop := forall o, match run p o with ROk a _ _ => P a | _ => True end.
Lemma gives_bind {A B} (p : prog A) (k : A -> prog B) (Q : A -> Prop) P : gives p Q -> (forall a, Q a -> gives (k a) P) -> gives (bind p k) P.
Proof.
  intros H K o. rewrite bind_run. specialize (H o). destruct (run p o) as [a o' ev|e o' ev|y]; auto.
  specialize (K a H o'). destruct (run (k a) o'); auto.
Qed.
Lemma gives_any {A} (p : prog A) : gives p (fun _ => True).
Proof. intros o. destruct (run p o); exact I. Qed.
Lemma gives_ret {A} (a : A) (P : A -> Prop) : P a -> gives (Ret a) P.
Proof. intros H o. exact H. Qed.
Lemma gives_for {St} lo hi (st : St) body (P : St -> Prop) : P st -> (forall i s, P s -> gives (body i s) P) -> gives (for_ lo hi st body) P.
Proof.
  intros H0 H. unfold for_. generalize (Z.to_nat (hi - lo)). intros n. revert lo st H0. induction n as [|n IH]; intros i st H0; cbn; [now apply gives_ret|].
  eapply gives_bind; [apply (H _ _ H0)|]. intros a Ha. now apply IH.
Qed.
Lemma gives_vset {T} (a : array T) i x n : asize a = n -> gives (vset (S := S) a i x) (fun a => asize a = n).
Proof. intros H o. unfold vset. destruct (znth _ _); cbn; auto. Qed.
Lemma gives_mset {T} (a : array T) i j x n : asize a = n -> gives (mset (S := S) a i j x) (fun a => asize a = n).
Proof. intros H. unfold mset. destruct (inside _ _ _ _); [now apply gives_vset|intros o; exact I]. Qed.

Lemma in_place f (p : arr S -> prog (arr S)) : (forall a, cost (p a) none) -> (forall a, gives (p a) (fun b => asize b = asize a)) ->
  limit (bind (getarr f) (fun a => bind (p a) (setarr f))) [].
Proof.
  intros C G o m. cbn. rewrite chg_bind.
  assert (C0 : forall x, chg (p (oA o f)) o x = 0%nat) by (intros x; pose proof (cost_chg (p (oA o f)) o none x (C _)) as X; unfold none in X; lia).
  rewrite C0. specialize (G (oA o f) o). destruct (run (p (oA o f)) o) as [a o' ev|e o' ev|y] eqn:E; try (unfold times; cbn; lia).
  destruct (chg_none (p (oA o f)) (inl f) o o' (mkStore (fun _ => 0) 0) (C0 _)) as (X & _); [now rewrite E|]. cbn in X.
  cbn. rewrite X, G, Z.eqb_refl. unfold times; cbn; lia.
Qed.
Ltac gi := repeat first
  [ assumption
  | lazymatch goal with
    | |- gives (for_ _ _ _ _) _ => apply gives_for; [|intros]
    | |- gives (vset _ _ _) _ => apply gives_vset
    | |- gives (mset _ _ _ _) _ => apply gives_mset
    | |- gives (if ?c then _ else _) _ => destruct c
    | |- gives (Ret _) _ => apply gives_ret
    | |- gives (bind (for_ _ _ _ _) _) (fun b => asize b = ?n) => apply gives_bind with (Q := fun b => asize b = n); [|intros]
    | |- gives (bind _ _) _ => eapply gives_bind; [apply gives_any|intros ? _]
    | |- asize _ = asize _ => reflexivity
    end ].
Local Hint Resolve c_int c_idiv c_irem c_vget c_vset c_mget c_mset c_vinc c_zeros c_resize : cost.
Ltac go := repeat first
  [ progress cbn beta
  | lazymatch goal with
    | |- forall _, _ => intro
    | |- True => exact I
    | |- cost (Ret _) _ => exact I
    | |- cost (bind _ _) none => apply cost_seq
    | |- cost (for_ _ _ _ _) none => apply cost_for
    | |- cost (match ?x with _ => _ end) _ => destruct x
    | |- cost (geti _) _ => cbn | |- cost (getb _) _ => cbn | |- cost (getf _) _ => cbn
    | |- cost (getn _ _) _ => cbn | |- cost (getv _ _) _ => cbn | |- cost (sizen _) _ => cbn
    | |- cost (getarr _) _ => cbn
    | |- cost (Throw _) _ => exact I
    | |- cost (seti _ _) _ => exact I | |- cost (setb _ _) _ => exact I | |- cost (setf _ _) _ => exact I
    | |- cost (putv _ _ _) _ => exact I | |- cost (out _ _ _) _ => exact I
    | |- cost (iadd _ _) _ => apply c_int | |- cost (isub _ _) _ => apply c_int | |- cost (imul _ _) _ => apply c_int
    | |- cost (reject _ _ _) _ => unfold reject
    | |- cost (elems _ _) _ => unfold elems | |- cost (elems_n _ _) _ => unfold elems_n
    | |- cost (neg_arr _ _) _ => unfold neg_arr
    | |- cost (vset _ _ _) _ => apply c_vset | |- cost (resize _ _ _) _ => apply c_resize | |- cost (zeros _ _ _) _ => apply c_zeros
    | |- cost (vget _ _) _ => apply c_vget | |- cost (mget _ _ _) _ => apply c_mget | |- cost (mset _ _ _ _) _ => apply c_mset
    | |- _ => solve [auto with cost]
    end ].
Lemma l_fill f n x : (forall j, cost (x j) none) -> limit (fill_vec S f n x) [].
Proof. intros H. unfold fill_vec. apply in_place; intros a; [go; auto|gi]. Qed.
Lemma l_drop f r n x : limit (drop_first S f r n x) [].
Proof. unfold drop_first. apply in_place; intros a; [go|gi]. Qed.
Lemma l_interp f a b x y z : limit (interp S f a b x y z) [].
Proof. unfold interp. apply in_place; intros c; [go|gi]. Qed.
Lemma l_resize f r c : limit (resize_member S f r c) [inl f].
Proof.
  unfold resize_member. apply limit_one. cbn. intros a. apply cost_seq; [apply c_resize|]. intros a'. cbn. split; [|exact I].
  unfold one. destruct (member_eq_dec _ _); [lia|congruence].
Qed.
Lemma c_vet_cols n l : cost (vet_cols S n l) none.
Proof. induction l as [|x l IH]; cbn [vet_cols fold_right]; [exact I|]. apply cost_seq; [unfold reject; destruct (ne _ _); exact I|intros; apply IH]. Qed.
Lemma c_vet_rows l : cost (vet_rows S l) none.
Proof. induction l as [|x l IH]; cbn [vet_rows fold_right]; [exact I|]. apply cost_seq; [unfold reject; destruct (ne _ _); exact I|intros; apply IH]. Qed.
Local Hint Resolve c_vet_cols c_vet_rows : cost.
Lemma c_vet v : cost (vet S v) none.
Proof. unfold vet. go. Qed.
Lemma c_report v : cost (report S v) none.
Proof. unfold report. go. Qed.
Ltac li := first
  [ apply l_resize | apply l_fill; intros; go | apply l_drop | apply l_interp
  | lazymatch goal with |- limit (bind _ _) _ => fail | |- _ => apply limit_cost; solve [go] end
  | eapply limit_bind; [|intros] ].
Ltac le := let m := fresh in intros m; destruct m as [[]|[]]; vm_compute; lia.
Ltac by_le := eapply limit_le; [repeat li|le].
Definition vec_members : list member := [inl A_phip; inl A_chi; inl A_pres; inl A_phi].
Lemma l_profiles v n : limit (store_profiles S v n) (inl A_iota :: vec_members ++ [inr N_compute_surfs]).
Proof.
  unfold store_profiles. apply (limit_bind _ _ [inl A_iota]); [apply l_resize|intros _].
  apply (limit_bind _ _ []); [li|intros _]. apply (limit_bind _ _ vec_members); [destruct (_ =? _); by_le|intros _].
  apply limit_one. apply cost_seq; [go|intros cs]. apply cost_seq; [go|intros cs']. cbn. split; [|exact I].
  unfold one. destruct (member_eq_dec _ _); [lia|congruence].
Qed.
Definition half_members : list member := map inl
  [A_rmnc; A_zmns; A_lmns; A_bmnc; A_bsubumnc; A_bsubvmnc; A_rmns; A_zmnc; A_lmnc; A_bmns; A_bsubumns; A_bsubvmns].
Lemma l_half v n : limit (store_half S v n) half_members.
Proof.
  unfold store_half. apply (limit_bind _ _ []); [li|intros mm].
  apply (limit_bind _ _ [inl A_rmnc]); [li|intros _]. apply (limit_bind _ _ [inl A_zmns]); [li|intros _]. apply (limit_bind _ _ [inl A_lmns]); [li|intros _].
  apply (limit_bind _ _ []); [li|intros _]. apply (limit_bind _ _ []); [li|intros mq].
  apply (limit_bind _ _ [inl A_bmnc]); [li|intros _]. apply (limit_bind _ _ [inl A_bsubumnc]); [li|intros _]. apply (limit_bind _ _ [inl A_bsubvmnc]); [li|intros _].
  do 3 (apply (limit_bind _ _ []); [li|intros _]). apply (limit_bind _ _ []); [li|intros as_]. destruct as_; by_le.
Qed.
Lemma l_radial n : limit (radial_grids S n) [inl A_s_in].
Proof.
  unfold radial_grids. cbv zeta. do 3 (apply (limit_bind _ _ []); [li|intros]). apply (limit_bind _ _ [inl A_s_in]); [li|intros _].
  by_le.
Qed.
Definition vmec_list : list member := inl A_iota :: vec_members ++ [inr N_compute_surfs] ++ half_members ++ [inl A_s_in].
Lemma l_vmec v : limit (init_from_vmec S v) vmec_list.
Proof.
  unfold init_from_vmec. apply (limit_bind _ _ []); [li|intros n]. apply (limit_bind _ _ []); [li|intros _].
  apply (limit_bind _ _ []); [apply limit_cost, c_vet|intros _].
  apply (limit_bind _ _ (inl A_iota :: vec_members ++ [inr N_compute_surfs])); [apply l_profiles|intros _].
  apply (limit_bind _ _ half_members); [apply l_half|intros _].
  apply (limit_bind _ _ []); [apply limit_cost, c_report|intros _].
  eapply limit_le; [apply limit_bind with (l := [inl A_s_in]) (l' := []); [apply l_radial|intros [full half]]|le].
  apply (limit_bind _ _ []); [li|intros mm]. apply (limit_bind _ _ []); [li|intros as_].
  do 2 (apply (limit_bind _ _ []); [li|intros _]).
  apply (limit_bind _ _ []); [destruct as_; by_le|intros _]. by_le.
Qed.
Lemma vmec_once m : (times vmec_list m <= 1)%nat.
Proof. revert m. le. Qed.
End Progs.

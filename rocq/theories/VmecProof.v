(** Proofs about init_from_vmec. *)
From Coq Require Import ZArith QArith List String Bool Lia.
From Verif Require Import Scalar Prog Model Wp Func Step TrigProof Spec Vmec VmecSpec.
Import ListNotations.
Local Open Scope Z_scope.

Section Verdict.
Variable S : Scalar.
Notation prog := (prog S).
Notation obj := (obj S).

(** [verdict p o C]: the read-only program p succeeds if C and throws otherwise. *)
Definition verdict (p : prog unit) (o : obj) (C : Prop) : Prop :=
  (run p o = ROk tt o [] /\ C) \/ (exists m, run p o = RThrow m o [] /\ ~ C).

Lemma vd_iff p o (C D : Prop) : (C <-> D) -> verdict p o C -> verdict p o D.
Proof. intros H [(E & X)|(m & E & X)]; [left|right; exists m]; tauto. Qed.
Lemma vd_ret o : verdict (Ret tt) o True.
Proof. left. split; auto. Qed.
Lemma vd_seq p (k : prog unit) o (C D : Prop) :
  verdict p o C -> (C -> verdict k o D) -> verdict (bind p (fun _ => k)) o (C /\ D).
Proof.
  intros [(E & X)|(m & E & X)] H.
  - destruct (H X) as [(E' & Y)|(m & E' & Y)].
    + left. rewrite bind_run, E, E'. tauto.
    + right. exists m. rewrite bind_run, E, E'. tauto.
  - right. exists m. rewrite bind_run, E. tauto.
Qed.
Lemma vd_reject b m o (C : Prop) : (b = false <-> C) -> verdict (reject S b m) o C.
Proof.
  intros H. unfold reject. destruct b.
  - right. exists m. split; auto. intros X. apply H in X. discriminate.
  - left. split; [reflexivity|tauto].
Qed.
Lemma vd_geti f v (k : Z -> prog unit) o C : oI o f = Some v -> verdict (k v) o C -> verdict (bind (geti f) k) o C.
Proof. intros E H. unfold verdict. cbn. rewrite E. exact H. Qed.
Lemma vd_getb f v (k : bool -> prog unit) o C : oB o f = Some v -> verdict (k v) o C -> verdict (bind (getb f) k) o C.
Proof. intros E H. unfold verdict. cbn. rewrite E. exact H. Qed.
Lemma vd_sizen f (k : Z -> prog unit) o C : verdict (k (asize (oN o f))) o C -> verdict (bind (sizen f) k) o C.
Proof. intros H. exact H. Qed.
Lemma vd_getn f i v (k : Z -> prog unit) o C : elemN o f i = Some (Some v) ->
  verdict (k v) o C -> verdict (bind (getn f i) k) o C.
Proof.
  intros E H. unfold elemN in E. destruct (_ && _)%bool; [|discriminate]. unfold verdict. cbn. rewrite E. exact H.
Qed.
Lemma vd_int z (k : Z -> prog unit) o C : INT_MIN <= z <= INT_MAX -> verdict (k z) o C -> verdict (bind (int_ z) k) o C.
Proof. intros E H. unfold int_. rewrite in_int_true by auto. exact H. Qed.
Lemma vd_for n (body : Z -> unit -> prog unit) o (C : Z -> Prop) : forall lo,
  (forall j, lo <= j < lo + Z.of_nat n -> verdict (body j tt) o (C j)) ->
  verdict (for_from n lo tt body) o (forall j, lo <= j < lo + Z.of_nat n -> C j).
Proof.
  induction n as [|n IH]; intros lo H; cbn [for_from].
  - left. split; [reflexivity|]. intros; lia.
  - eapply vd_iff with (C := C lo /\ (forall j, lo + 1 <= j < lo + 1 + Z.of_nat n -> C j)).
    { split.
      - intros (A & B) j Hj. destruct (Z.eq_dec j lo) as [->|]; auto. apply B. lia.
      - intros A. split; [apply A; lia|]. intros j Hj. apply A. lia. }
    assert (E : verdict (bind (body lo tt) (fun _ => for_from n (lo + 1) tt body)) o
       (C lo /\ (forall j, lo + 1 <= j < lo + 1 + Z.of_nat n -> C j))).
    { apply vd_seq; [apply H; lia|]. intros _. apply IH. intros j Hj. apply H. lia. }
    unfold verdict in *. rewrite bind_run in *. destruct (run (body lo tt) o) as [[] ? ?| |]; exact E.
Qed.
End Verdict.
Arguments verdict {S}.

Section VmecProof.
Variable S : Scalar.
Notation obj := (obj S).
Notation arr := (arr S).

Lemma ne_iff a b : ne a b = false <-> a = b.
Proof. unfold ne. rewrite negb_false_iff. apply Z.eqb_eq. Qed.

Lemma vd_cols (o : obj) ns l :
  verdict (vet_cols S ns l) o (fold_right (fun x P => acols (snd x) = ns /\ P) True l).
Proof.
  induction l as [|x l IH]; cbn [vet_cols fold_right].
  - left. split; [reflexivity|auto].
  - apply vd_seq; [apply vd_reject, ne_iff|intros _; exact IH].
Qed.
Lemma vd_rows (o : obj) l :
  verdict (vet_rows S l) o (fold_right (fun x P => arows (snd (fst x)) = snd x /\ P) True l).
Proof.
  induction l as [|x l IH]; cbn [vet_rows fold_right].
  - left. split; [reflexivity|auto].
  - apply vd_seq; [apply vd_reject, ne_iff|intros _; exact IH].
Qed.

Lemma elemN_vec (o : obj) f n g k : vec_is (oN o f) n g -> 0 <= k < n -> elemN o f k = Some (Some (g k)).
Proof.
  intros H Hk. unfold elemN. rewrite (vec_is_asize _ _ _ H). zb. destruct H as (_ & _ & _ & H). auto.
Qed.
Lemma elemN_in (o : obj) f n g k x : vec_is (oN o f) n g -> elemN o f k = Some (Some x) -> 0 <= k < n /\ x = g k.
Proof.
  intros H E. unfold elemN in E. rewrite (vec_is_asize _ _ _ H) in E.
  destruct (Z.leb_spec 0 k); [|discriminate]. destruct (Z.ltb_spec k n); [|discriminate]. cbn in E.
  split; [lia|]. destruct H as (_ & _ & _ & H). rewrite H in E by lia. congruence.
Qed.

Lemma vet_verdict (o : obj) i v : vready o i -> 1 - INT_MAX <= v_ns S v <= INT_MAX ->
  verdict (vet S v) o (well_shaped o i v).
Proof.
  intros R Hns. destruct (vr_vecs _ _ _ R N_xm ltac:(cbn; tauto)) as (nxm & xm & Vxm). destruct (vr_vecs _ _ _ R N_xn ltac:(cbn; tauto)) as (nxn & xn & Vxn).
  destruct (vr_vecs _ _ _ R N_xm_nyq ltac:(cbn; tauto)) as (nxmq & xmq & Vxmq). destruct (vr_vecs _ _ _ R N_xn_nyq ltac:(cbn; tauto)) as (nxnq & xnq & Vxnq).
  destruct (vr_vecs _ _ _ R N_compute_surfs ltac:(cbn; tauto)) as (ncs & cs & Vcs).
  destruct (vr_pos _ _ _ R) as (P1 & P2 & P3 & P4).
  pose proof (vec_is_wf _ _ _ Vxm) as (W1 & _). pose proof (vec_is_wf _ _ _ Vxmq) as (W2 & _).
  pose proof (vec_is_wf _ _ _ Vcs) as (W3 & _).
  rewrite (proj1 Vxm) in W1. rewrite (proj1 Vxmq) in W2. rewrite (proj1 Vcs) in W3.
  assert (Imin : INT_MIN = -2147483648) by reflexivity.
  assert (Imax : INT_MAX = 2147483647) by reflexivity.
  eapply vd_iff; cycle 1.
  - unfold vet. cbv zeta.
    eapply vd_seq. { apply vd_reject. apply Z.ltb_ge. } intros H1.
    eapply vd_geti; [apply R|].
    eapply vd_seq. { apply vd_reject. apply Z.ltb_ge. } intros H2.
    eapply vd_seq. { apply vd_reject. apply ne_iff. } intros H3.
    eapply vd_seq with (C := asize (v_phip S v) = 0 \/
    (asize (v_phip S v) = v_ns S v /\ asize (v_chi S v) = v_ns S v /\
     asize (v_pres S v) = v_ns S v /\ asize (v_phi S v) = v_ns S v)).
    { destruct (Z.eqb_spec (asize (v_phip S v)) 0) as [E|E].
      - left. split; auto.
      - eapply vd_iff; cycle 1.
        + eapply vd_seq; [apply vd_reject, ne_iff|]. intros _. eapply vd_seq; [apply vd_reject, ne_iff|]. intros _.
          eapply vd_seq; [apply vd_reject, ne_iff|]. intros _. apply vd_reject, ne_iff.
        + tauto. }
    intros H4. eapply vd_geti; [apply R|].
    eapply vd_sizen. eapply vd_seq; [apply vd_reject, ne_iff|]. intros H5.
    eapply vd_sizen. eapply vd_seq; [apply vd_reject, ne_iff|]. intros H6.
    eapply vd_geti; [apply R|].
    eapply vd_sizen. eapply vd_seq; [apply vd_reject, ne_iff|]. intros H7.
    eapply vd_sizen. eapply vd_seq; [apply vd_reject, ne_iff|]. intros H8.
    rewrite (vec_is_asize _ _ _ Vxm) in H5. rewrite (vec_is_asize _ _ _ Vxn) in H6.
    rewrite (vec_is_asize _ _ _ Vxmq) in H7. rewrite (vec_is_asize _ _ _ Vxnq) in H8.
    eapply vd_getn; [eapply elemN_vec; [exact Vxm|lia]|]. eapply vd_seq; [apply vd_reject, ne_iff|]. intros H9.
    eapply vd_getn; [eapply elemN_vec; [exact Vxn|lia]|]. eapply vd_seq; [apply vd_reject, ne_iff|]. intros H10.
    eapply vd_getn; [eapply elemN_vec; [exact Vxmq|lia]|]. eapply vd_seq; [apply vd_reject, ne_iff|]. intros H11.
    eapply vd_getn; [eapply elemN_vec; [exact Vxnq|lia]|]. eapply vd_seq; [apply vd_reject, ne_iff|]. intros H12.
    destruct (vr_int _ _ _ R H2) as (O1 & O2).
    eapply vd_int; [lia|]. eapply vd_getn; [eapply elemN_vec; [exact Vxn|lia]|]. eapply vd_geti; [apply R|].
    eapply vd_int; [lia|]. eapply vd_seq; [apply vd_reject, ne_iff|]. intros H13.
    eapply vd_int; [lia|]. eapply vd_getn; [eapply elemN_vec; [exact Vxnq|lia]|]. eapply vd_geti; [apply R|].
    eapply vd_int; [lia|]. eapply vd_seq; [apply vd_reject, ne_iff|]. intros H14.
    eapply vd_seq; [apply vd_cols|]. intros _. eapply vd_seq; [apply vd_rows|]. intros _.
    eapply vd_getb; [apply R|].
    eapply vd_seq with (C := asym i = true ->
      forall a r, In (a, r) (asym_args v (mnmax i) (mnmaxq i)) -> arows a = r /\ acols a = v_ns S v).
    { destruct (asym i).
      - eapply vd_iff; cycle 1; [eapply vd_seq; [apply vd_cols|intros _; apply vd_rows]|].
        split.
        + cbn [fold_right fst snd]. intros (A & B) _ a r Hin. unfold asym_args in Hin. cbn in Hin.
          repeat destruct Hin as [Hin|Hin]; try contradiction; injection Hin as <- <-; split; tauto.
        + intros H. specialize (H eq_refl). unfold asym_args in H. cbn [fold_right fst snd].
          splits; auto; eapply H; cbn; eauto 10.
      - left. split; [reflexivity|discriminate]. }
    intros H15. eapply vd_sizen. unfold for_. apply vd_for.
    intros j Hj. rewrite (vec_is_asize _ _ _ Vcs) in Hj.
    eapply vd_getn; [eapply elemN_vec; [exact Vcs|lia]|].
    eapply vd_seq; [apply vd_reject, Z.ltb_ge|]. intros Hc. eapply vd_int; [lia|].
    apply vd_reject with (C := cs j < v_ns S v - 1). apply Z.leb_gt.
  - rewrite !(vec_is_asize _ _ _ Vcs). split.
    + intros (A1 & A2 & A3 & A4 & A5 & A6 & A7 & A8 & A9 & A10 & A11 & A12 & A13 & A14 & A15 & A16 & A17 & A18).
      rewrite (vec_is_asize _ _ _ Vxm) in A5. rewrite (vec_is_asize _ _ _ Vxn) in A6.
      rewrite (vec_is_asize _ _ _ Vxmq) in A7. rewrite (vec_is_asize _ _ _ Vxnq) in A8.
      constructor; auto.
      * now rewrite (vec_is_asize _ _ _ Vxm), (vec_is_asize _ _ _ Vxn).
      * now rewrite (vec_is_asize _ _ _ Vxmq), (vec_is_asize _ _ _ Vxnq).
      * intros f Hf. cbn in Hf. repeat destruct Hf as [<-|Hf]; try contradiction.
        -- erewrite elemN_vec; [now rewrite A9|exact Vxm|lia].
        -- erewrite elemN_vec; [now rewrite A10|exact Vxn|lia].
        -- erewrite elemN_vec; [now rewrite A11|exact Vxmq|lia].
        -- erewrite elemN_vec; [now rewrite A12|exact Vxnq|lia].
      * erewrite elemN_vec; [now rewrite A13|exact Vxn|lia].
      * erewrite elemN_vec; [now rewrite A14|exact Vxnq|lia].
      * intros a r Hin. unfold sym_args in Hin. cbn in Hin.
        cbn [fold_right fst snd] in A15, A16.
        repeat destruct Hin as [Hin|Hin]; try contradiction; injection Hin as <- <-; split; tauto.
      * intros j x Hx. destruct (elemN_in _ _ _ _ _ _ Vcs Hx) as (Hj & ->). specialize (A18 j). lia.
    + intros [B1 B2 B3 B4 B5 B6 B7 B8 B9 B10 B11 B12].
      rewrite (vec_is_asize _ _ _ Vxm), (vec_is_asize _ _ _ Vxn) in B5.
      rewrite (vec_is_asize _ _ _ Vxmq), (vec_is_asize _ _ _ Vxnq) in B6. destruct B5 as (E1 & E2). destruct B6 as (E3 & E4).
      rewrite (vec_is_asize _ _ _ Vxm), (vec_is_asize _ _ _ Vxn), (vec_is_asize _ _ _ Vxmq), (vec_is_asize _ _ _ Vxnq).
      assert (X1 : xm 0 = 0) by (specialize (B7 N_xm (or_introl eq_refl)); apply (elemN_in _ _ _ _ _ _ Vxm) in B7; lia).
      assert (X2 : xn 0 = 0) by (specialize (B7 N_xn (or_intror (or_introl eq_refl))); apply (elemN_in _ _ _ _ _ _ Vxn) in B7; lia).
      assert (X3 : xmq 0 = 0) by (specialize (B7 N_xm_nyq (or_intror (or_intror (or_introl eq_refl)))); apply (elemN_in _ _ _ _ _ _ Vxmq) in B7; lia).
      assert (X4 : xnq 0 = 0) by (specialize (B7 N_xn_nyq (or_intror (or_intror (or_intror (or_introl eq_refl))))); apply (elemN_in _ _ _ _ _ _ Vxnq) in B7; lia).
      apply (elemN_in _ _ _ _ _ _ Vxn) in B8. apply (elemN_in _ _ _ _ _ _ Vxnq) in B9.
      splits; auto; try lia; try tauto.
      * unfold sym_args in B10. cbn [fold_right fst snd]. splits; auto; eapply B10; cbn; eauto 10.
      * unfold sym_args in B10. cbn [fold_right fst snd]. splits; auto; eapply B10; cbn; eauto 10.
      * intros j Hj. specialize (B12 j (cs j)). rewrite (elemN_vec _ _ _ _ _ Vcs) in B12 by lia.
        specialize (B12 eq_refl). lia.
Qed.

(** ** Programs that cannot throw, and programs that only read *)
Fixpoint nothrow {A} (p : prog S A) : Prop :=
  match p with
  | Ret _ => True
  | Throw _ => False
  | UB _ => True
  | GetI _ k => forall v, nothrow (k v)
  | SetI _ _ k => nothrow k
  | GetB _ k => forall v, nothrow (k v)
  | SetB _ _ k => nothrow k
  | GetF _ k => forall v, nothrow (k v)
  | SetF _ _ k => nothrow k
  | GetN _ _ k => forall v, nothrow (k v)
  | SizeN _ k => forall v, nothrow (k v)
  | SetNArr _ _ k => nothrow k
  | GetA _ _ k => forall v, nothrow (k v)
  | PutA _ _ _ k => nothrow k
  | DimA _ k => forall r c, nothrow (k r c)
  | GetArr _ k => forall v, nothrow (k v)
  | SetArr _ _ k => nothrow k
  | Out _ k => nothrow k
  end.
Fixpoint readonly {A} (p : prog S A) : Prop :=
  match p with
  | Ret _ | Throw _ | UB _ => True
  | GetI _ k => forall v, readonly (k v)
  | GetB _ k => forall v, readonly (k v)
  | GetF _ k => forall v, readonly (k v)
  | GetN _ _ k => forall v, readonly (k v)
  | SizeN _ k => forall v, readonly (k v)
  | GetA _ _ k => forall v, readonly (k v)
  | DimA _ k => forall r c, readonly (k r c)
  | GetArr _ k => forall v, readonly (k v)
  | _ => False
  end.
Lemma nothrow_run {A} (p : prog S A) : nothrow p -> forall o m o' ev, run p o <> RThrow m o' ev.
Proof.
  induction p; cbn [nothrow run]; intros H' o m o' ev; try discriminate; try contradiction; auto.
  - destruct (oI o f); [auto|discriminate].
  - destruct (oB o f); [auto|discriminate].
  - destruct (oF o f); [auto|discriminate].
  - destruct (znth _ i) as [[v|]|]; [auto|discriminate|discriminate].
  - destruct (znth _ i) as [[v|]|]; [auto|discriminate|discriminate].
  - destruct (znth _ i) as [v|]; [auto|discriminate].
  - specialize (IHp H' o). destruct (run p o); cbn; try discriminate. intros E. injection E as <- <- <-. now apply (IHp msg o0 ev0).
Qed.
Lemma readonly_run {A} (p : prog S A) : readonly p -> forall o m o' ev, run p o = RThrow m o' ev -> o' = o /\ ev = [].
Proof.
  induction p; cbn [readonly run]; intros H' o m o' ev E; try discriminate; try contradiction; eauto.
  - injection E as _ <- <-. auto.
  - destruct (oI o f); [eauto|discriminate].
  - destruct (oB o f); [eauto|discriminate].
  - destruct (oF o f); [eauto|discriminate].
  - destruct (znth _ i) as [[v|]|]; [eauto|discriminate|discriminate].
  - destruct (znth _ i) as [[v|]|]; [eauto|discriminate|discriminate].
Qed.
Lemma nothrow_bind {A B} (p : prog S A) (k : A -> prog S B) :
  nothrow p -> (forall a, nothrow (k a)) -> nothrow (bind p k).
Proof. induction p; cbn; intros; auto. Qed.
Lemma readonly_bind {A B} (p : prog S A) (k : A -> prog S B) :
  readonly p -> (forall a, readonly (k a)) -> readonly (bind p k).
Proof. induction p; cbn; intros; auto; contradiction. Qed.
Lemma nothrow_for {St} lo hi (st : St) (body : Z -> St -> prog S St) :
  (forall j s, nothrow (body j s)) -> nothrow (for_ lo hi st body).
Proof.
  intros H. unfold for_. generalize (Z.to_nat (hi - lo)). intros n. revert lo st. induction n as [|n IH]; intros lo' st'; cbn; auto.
  apply nothrow_bind; auto.
Qed.
Lemma readonly_for {St} lo hi (st : St) (body : Z -> St -> prog S St) :
  (forall j s, readonly (body j s)) -> readonly (for_ lo hi st body).
Proof.
  intros H. unfold for_. generalize (Z.to_nat (hi - lo)). intros n. revert lo st. induction n as [|n IH]; intros lo' st'; cbn; auto.
  apply readonly_bind; auto.
Qed.
Lemma nothrow_resize {T} (a : array T) r c : nothrow (@resize S T a r c).
Proof. unfold resize. destruct (_ || _)%bool; cbn; auto. destruct (_ =? _); cbn; auto. Qed.
Lemma nothrow_zeros {T} (z : T) r c : nothrow (@zeros S T z r c).
Proof. unfold zeros. destruct (_ || _)%bool; cbn; auto. Qed.
Lemma nothrow_vget {T} (a : array T) i : nothrow (@vget S T a i).
Proof. unfold vget. destruct (znth _ _) as [[?|]|]; cbn; auto. Qed.
Lemma nothrow_vset {T} (a : array T) i x : nothrow (@vset S T a i x).
Proof. unfold vset. destruct (znth _ _) as [?|]; cbn; auto. Qed.
Lemma nothrow_int z : nothrow (@int_ S z).
Proof. unfold int_. destruct (in_int z); cbn; auto. Qed.
Lemma readonly_int z : readonly (@int_ S z).
Proof. unfold int_. destruct (in_int z); cbn; auto. Qed.
Lemma nothrow_irem a b : nothrow (@irem S a b).
Proof. unfold irem. destruct (b =? 0); cbn; auto. Qed.

Lemma nothrow_mget {T} (a : array T) i j : nothrow (@mget S T a i j).
Proof. unfold mget. destruct (inside _ _ _ _); [apply nothrow_vget|exact I]. Qed.
Lemma nothrow_mset {T} (a : array T) i j x : nothrow (@mset S T a i j x).
Proof. unfold mset. destruct (inside _ _ _ _); [apply nothrow_vset|exact I]. Qed.
Lemma nothrow_getm f i j : nothrow (@getm S f i j).
Proof. unfold getm. cbn. intros r c. destruct (inside i j r c); cbn; auto. Qed.

Local Ltac nt :=
  repeat first
    [ apply nothrow_bind; [|intros]
    | apply nothrow_for; intros
    | apply nothrow_resize | apply nothrow_zeros | apply nothrow_vget | apply nothrow_vset
    | apply nothrow_int | apply nothrow_irem | apply nothrow_getm
    | apply nothrow_mget | apply nothrow_mset
    | match goal with |- nothrow (if ?b then _ else _) => destruct b end
    | match goal with |- nothrow (match ?x with pair _ _ => _ end) => destruct x end
    | exact I
    | solve [cbn; intros; exact I] ].

Lemma nothrow_resize_member f r c : nothrow (resize_member S f r c).
Proof. unfold resize_member. nt. Qed.
Lemma nothrow_fill f n x : (forall j, nothrow (x j)) -> nothrow (fill_vec S f n x).
Proof. intros H. unfold fill_vec. nt; auto. Qed.
Lemma nothrow_drop f r n x : nothrow (drop_first S f r n x).
Proof. unfold drop_first. nt. Qed.
Lemma nothrow_interp f n m x a b : nothrow (interp S f n m x a b).
Proof. unfold interp. nt. Qed.

Local Ltac nt2 :=
  repeat first
    [ apply nothrow_resize_member | apply nothrow_fill; intros | apply nothrow_drop | apply nothrow_interp
    | apply nothrow_bind; [|intros]
    | progress nt ].

Lemma after_vet v n : nothrow (bind (store_profiles S v n) (fun _ => bind (store_half S v n) (fun _ =>
  bind (report S v) (fun _ => bind (radial_grids S (v_ns S v)) (fun fh => match fh with (full, half) =>
  bind (geti I_mnmax) (fun mnmax => bind (getb B_asym) (fun asym =>
  bind (interp S A_rmnc mnmax n (v_rmnc S v) full half) (fun _ =>
  bind (interp S A_zmns mnmax n (v_zmns S v) full half) (fun _ =>
  bind (if asym then bind (interp S A_rmns mnmax n (v_rmns S v) full half) (fun _ =>
     interp S A_zmnc mnmax n (v_zmnc S v) full half) else Ret tt) (fun _ =>
  bind (geti I_mpol) (fun mpol => bind (imul 6 mpol) (fun x => bind (seti I_mboz x) (fun _ =>
  bind (geti I_ntor) (fun ntor => bind (imul 2 ntor) (fun x => bind (isub x 1) (fun x =>
  seti I_nboz (Z.max x 0)))))))))))) end))))).
Proof.
  unfold store_profiles, store_half, report, radial_grids, elems, elems_n. nt2.
Qed.

Lemma vet_readonly v : readonly (vet S v).
Proof.
  unfold vet. cbv zeta.
  assert (HR : forall b m, readonly (reject S b m)) by (intros [|] m; exact I).
  assert (HC : forall ns l, readonly (vet_cols S ns l)).
  { intros ns l. induction l; cbn [vet_cols fold_right]; [exact I|]. apply readonly_bind; auto. }
  assert (HW : forall l, readonly (vet_rows S l)).
  { intros l. induction l; cbn [vet_rows fold_right]; [exact I|]. apply readonly_bind; auto. }
  repeat first
    [ apply HR | apply HC | apply HW | apply readonly_bind; [|intros] | apply readonly_for; intros | apply readonly_int
    | match goal with |- readonly (if ?b then _ else _) => destruct b end
    | exact I | solve [cbn; intros; exact I] ].
Qed.

Lemma throw_state (o : obj) v m o' ev :
  run (init_from_vmec S v) o = RThrow m o' ev -> o' = updI o I_ns_in (Some (v_ns S v - 1)) /\ ev = [].
Proof.
  unfold init_from_vmec. intros E.
  rewrite bind_run in E. change (run (isub (v_ns S v) 1) o) with (run (@int_ S (v_ns S v - 1)) o) in E.
  unfold int_ in E at 1. destruct (in_int (v_ns S v - 1)); cbn [run] in E; [|discriminate].
  rewrite bind_run in E. unfold seti in E at 1. cbn [run] in E.
  rewrite bind_run in E. destruct (run (vet S v) _) as [[] o1 e1|m1 o1 e1|] eqn:E1; [| |discriminate].
  - match type of E with context [run ?p o1] => pose proof (nothrow_run p (after_vet v _) o1) as N end.
    destruct (run _ o1) as [| |] in E, N; try discriminate. now destruct (N msg o0 ev0).
  - destruct (readonly_run _ (vet_readonly v) _ _ _ _ E1) as (-> & ->).
    cbn in E. injection E as _ <- <-. auto.
Qed.
End VmecProof.

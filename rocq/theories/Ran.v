(** What a program that ended normally has done: every step of it ended normally. *)
From Coq Require Import ZArith List String Bool Lia.
From Verif Require Import Scalar Prog Model Wp Func FuncExt Spec Vmec Nc NcModel Py Frame FrameThms.
Import ListNotations.
Local Open Scope Z_scope.

Section Ran.
Context {S : Scalar}.
Notation obj := (obj S).
Notation prog := (prog S).
Definition ran {A} (p : prog A) (o : obj) (a : A) (o' : obj) : Prop := exists ev, run p o = ROk a o' ev.

Lemma ran_ret {A} (x a : A) o o' : ran (Ret x) o a o' -> a = x /\ o' = o.
Proof. intros (ev & E). cbn in E. injection E as <- <- _. auto. Qed.
Lemma ran_bind {A B} (p : prog A) (k : A -> prog B) o b o2 : ran (bind p k) o b o2 -> exists a o1, ran p o a o1 /\ ran (k a) o1 b o2.
Proof.
  intros (ev & E). rewrite bind_run in E. destruct (run p o) as [a o1 e1| |] eqn:E1; try discriminate.
  exists a, o1. split; [exists e1; exact E1|]. destruct (run (k a) o1) as [b' o' e2| |] eqn:E2; try discriminate.
  cbn in E. injection E as <- <- _. exists e2. exact E2.
Qed.
Lemma ran_same {A} L (p : prog A) o a o' : spares L p -> ran p o a o' -> same L o o'.
Proof. intros H (ev & E). pose proof (spares_run L p o H) as K. now rewrite E in K. Qed.
(** Every iteration of a loop *)
Lemma ran_for {St} L lo hi (st : St) body o st' o' : (forall j s, spares L (body j s)) -> ran (for_ lo hi st body) o st' o' ->
  forall j, lo <= j < hi -> exists s1 o1 s2 o2, same L o o1 /\ ran (body j s1) o1 s2 o2.
Proof.
  intros H. unfold for_. remember (Z.to_nat (hi - lo)) as n eqn:En. revert lo st o En.
  induction n as [|n IH]; intros lo st o En R j Hj; [lia|]. cbn [for_from] in R.
  apply ran_bind in R as (s1 & o1 & R1 & R2). destruct (Z.eq_dec j lo) as [->|].
  - exists st, o, s1, o1. split; [apply same_refl|exact R1].
  - destruct (IH (lo + 1) s1 o1 ltac:(lia) R2 j ltac:(lia)) as (t1 & p1 & t2 & p2 & K & K').
    exists t1, p1, t2, p2. split; [|exact K']. eapply same_trans; [|exact K]. eapply ran_same; [apply H|exact R1].
Qed.
Lemma ran_geti f o a o' : ran (geti f) o a o' -> oI o f = Some a /\ o' = o.
Proof. intros (ev & E). cbn in E. destruct (oI o f); [|discriminate]. injection E as <- <- _. auto. Qed.
Lemma ran_getb f o a o' : ran (getb f) o a o' -> oB o f = Some a /\ o' = o.
Proof. intros (ev & E). cbn in E. destruct (oB o f); [|discriminate]. injection E as <- <- _. auto. Qed.
Lemma ran_getn f i o a o' : ran (getn f i) o a o' -> znth (adata (oN o f)) i = Some (Some a) /\ o' = o.
Proof. intros (ev & E). cbn in E. destruct (znth _ i) as [[x|]|]; try discriminate. injection E as <- <- _. auto. Qed.
Lemma ran_getv f i o a o' : ran (getv f i) o a o' -> znth (adata (oA o f)) i = Some (Some a) /\ o' = o.
Proof. intros (ev & E). cbn in E. destruct (znth _ i) as [[x|]|]; try discriminate. injection E as <- <- _. auto. Qed.
Lemma ran_sizen f o a o' : ran (sizen f) o a o' -> a = asize (oN o f) /\ o' = o.
Proof. intros (ev & E). cbn in E. injection E as <- <- _. auto. Qed.
Lemma ran_getarr f o a o' : ran (getarr f) o a o' -> a = oA o f /\ o' = o.
Proof. intros (ev & E). cbn in E. injection E as <- <- _. auto. Qed.
Lemma ran_seti f v o a o' : ran (seti f v) o a o' -> o' = updI o f (Some v).
Proof. intros (ev & E). cbn in E. injection E as _ <- _. auto. Qed.
Lemma ran_setf f v o a o' : ran (setf f v) o a o' -> o' = updF o f (Some v).
Proof. intros (ev & E). cbn in E. injection E as _ <- _. auto. Qed.
Lemma ran_setn f v o a o' : ran (setn f v) o a o' -> o' = updN o f v.
Proof. intros (ev & E). cbn in E. injection E as _ <- _. auto. Qed.
Lemma ran_setarr f v o a o' : ran (setarr f v) o a o' -> o' = updA o f v.
Proof. intros (ev & E). cbn in E. injection E as _ <- _. auto. Qed.
Lemma ran_out t z x o a o' : ran (out t z x) o a o' -> o' = o.
Proof. intros (ev & E). cbn in E. injection E as _ <- _. auto. Qed.
Lemma ran_int z o a o' : ran (int_ z) o a o' -> a = z /\ o' = o /\ INT_MIN <= z <= INT_MAX.
Proof.
  unfold int_, in_int. destruct (_ && _) eqn:E; [|intros (ev & X); discriminate]. intros R. apply ran_ret in R as (-> & ->).
  apply andb_true_iff in E. rewrite !Z.leb_le in E. auto.
Qed.
Lemma ran_idiv a b o c o' : ran (idiv a b) o c o' -> b <> 0 /\ c = Z.quot a b /\ o' = o.
Proof.
  unfold idiv. destruct (Z.eqb_spec b 0); [intros (ev & X); discriminate|]. intros R. apply ran_int in R as (-> & -> & _). auto.
Qed.
Lemma inside_iff i j r c : inside i j r c = true <-> 0 <= i < r /\ 0 <= j < c.
Proof. unfold inside. rewrite !andb_true_iff, !Z.leb_le, !Z.ltb_lt. lia. Qed.
Lemma ran_vget {T} (a : array T) i o x o' : ran (vget a i) o x o' -> znth (adata a) i = Some (Some x) /\ o' = o.
Proof. unfold vget. destruct (znth _ i) as [[y|]|]; intros (ev & E); try discriminate. cbn in E. injection E as <- <- _. auto. Qed.
Lemma ran_vset {T} (a : array T) i y o x o' : ran (vset a i y) o x o' -> x = aput a i y /\ (exists c, znth (adata a) i = Some c) /\ o' = o.
Proof. unfold vset. destruct (znth _ i) as [c|] eqn:K; intros (ev & E); try discriminate. cbn in E. injection E as <- <- _. eauto. Qed.
Lemma ran_mget {T} (a : array T) i j o x o' : ran (mget a i j) o x o' ->
  0 <= i < arows a /\ 0 <= j < acols a /\ znth (adata a) (i + j * arows a) = Some (Some x) /\ o' = o.
Proof.
  unfold mget. destruct (inside _ _ _ _) eqn:K; [|intros (ev & E); discriminate]. apply inside_iff in K. intros R. apply ran_vget in R. tauto.
Qed.
Lemma ran_mset {T} (a : array T) i j y o x o' : ran (mset a i j y) o x o' -> 0 <= i < arows a /\ 0 <= j < acols a /\ arows x = arows a /\ acols x = acols a /\ o' = o.
Proof.
  unfold mset. destruct (inside _ _ _ _) eqn:K; [|intros (ev & E); discriminate]. apply inside_iff in K. intros R. apply ran_vset in R as (-> & _ & ->).
  cbn. tauto.
Qed.
Lemma ran_getm f i j o x o' : ran (getm f i j) o x o' ->
  0 <= i < arows (oA o f) /\ 0 <= j < acols (oA o f) /\ znth (adata (oA o f)) (i + j * arows (oA o f)) = Some (Some x) /\ o' = o.
Proof.
  unfold getm. intros (ev & E). cbn in E. destruct (inside _ _ _ _) eqn:K; [|discriminate]. apply inside_iff in K. cbn in E.
  destruct (znth _ _) as [[y|]|]; try discriminate. injection E as <- <- _. tauto.
Qed.
Lemma ran_zeros {T} (z : T) r c o a o' : ran (zeros z r c) o a o' -> 0 <= r /\ 0 <= c /\ arows a = r /\ acols a = c /\ o' = o.
Proof.
  unfold zeros. destruct (_ || _) eqn:K; intros R; [destruct R as (ev & R); discriminate|]. apply ran_ret in R as (-> & ->).
  apply orb_false_iff in K. rewrite !Z.ltb_ge in K. cbn. tauto.
Qed.
End Ran.
(** Takes a run apart, one step at a time *)
Ltac ran1 := match goal with
  | H : ran (bind _ _) _ _ _ |- _ => let a := fresh "a" in let o := fresh "o" in let R := fresh "R" in apply ran_bind in H as (a & o & R & H)
  | H : ran (Ret _) _ _ _ |- _ => apply ran_ret in H as (-> & ->)
  | H : ran (geti _) _ _ _ |- _ => let E := fresh "E" in apply ran_geti in H as (E & ->)
  | H : ran (getb _) _ _ _ |- _ => let E := fresh "E" in apply ran_getb in H as (E & ->)
  | H : ran (sizen _) _ _ _ |- _ => apply ran_sizen in H as (-> & ->)
  | H : ran (getarr _) _ _ _ |- _ => apply ran_getarr in H as (-> & ->)
  | H : ran (out _ _ _) _ _ _ |- _ => apply ran_out in H; subst
  | H : ran (isub _ _) _ _ _ |- _ => let E := fresh "E" in apply ran_int in H as (-> & -> & E)
  | H : ran (iadd _ _) _ _ _ |- _ => let E := fresh "E" in apply ran_int in H as (-> & -> & E)
  | H : ran (imul _ _) _ _ _ |- _ => let E := fresh "E" in apply ran_int in H as (-> & -> & E)
  | H : ran (getn _ _) _ _ _ |- _ => let E := fresh "E" in apply ran_getn in H as (E & ->)
  | H : ran (getv _ _) _ _ _ |- _ => let E := fresh "E" in apply ran_getv in H as (E & ->)
  end.

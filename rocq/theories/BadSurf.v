(** run() on any object whatever: it never throws, and reads s_in at every selected surface. *)
From Coq Require Import ZArith List String Bool Lia.
From Verif Require Import Scalar Prog Model Wp Func Step TrigProof Spec.
Import ListNotations.
Local Open Scope Z_scope.

Section BadSurf.
Variable S : Scalar.
Notation prog := (prog S).
Notation obj := (obj S).
Notation arr := (arr S).

(** Neither throws nor changes compute_surfs or s_in. *)
Fixpoint calm {A} (p : prog A) : Prop :=
  match p with
  | Ret _ | UB _ => True
  | Throw _ => False
  | GetI _ k => forall v, calm (k v)
  | SetI _ _ k => calm k
  | GetB _ k => forall v, calm (k v)
  | SetB _ _ k => calm k
  | GetF _ k => forall v, calm (k v)
  | SetF _ _ k => calm k
  | GetN _ _ k => forall v, calm (k v)
  | SizeN _ k => forall v, calm (k v)
  | SetNArr f _ k => f <> N_compute_surfs /\ calm k
  | GetA _ _ k => forall v, calm (k v)
  | PutA f _ _ k => f <> A_s_in /\ calm k
  | DimA _ k => forall r c, calm (k r c)
  | GetArr _ k => forall v, calm (k v)
  | SetArr f _ k => f <> A_s_in /\ calm k
  | Out _ k => calm k
  end.
Definition same (o o' : obj) : Prop := oN o' N_compute_surfs = oN o N_compute_surfs /\ oA o' A_s_in = oA o A_s_in.
(** Either has undefined behaviour or ends normally, in which case [G]. *)
Definition forces {A} (p : prog A) (o : obj) (G : Prop) : Prop :=
  match run p o with ROk _ o' _ => same o o' /\ G | RThrow _ _ _ => False | RUB _ => True end.

Lemma calm_bind {A B} (p : prog A) (k : A -> prog B) : calm p -> (forall a, calm (k a)) -> calm (bind p k).
Proof. induction p; cbn; intuition. Qed.
Lemma calm_for {St} (lo hi : Z) (st : St) (body : Z -> St -> prog St) : (forall i s, calm (body i s)) -> calm (for_ lo hi st body).
Proof.
  intros H. unfold for_. generalize (Z.to_nat (hi - lo)). intros n. revert lo st. induction n as [|n IH]; intros; cbn; auto.
  apply calm_bind; auto.
Qed.
Lemma calm_forces {A} (p : prog A) : forall o, calm p -> forces p o True.
Proof.
  unfold forces. induction p; intros o C; cbn [calm run] in *; try contradiction;
    repeat match goal with
    | H : forall v o, calm (?k v) -> _ |- match run (?k ?v) ?o with _ => _ end => exact (H v o (C v))
    | H : forall r c o, calm (?k r c) -> _ |- match run (?k ?r ?c) ?o with _ => _ end => exact (H r c o (C r c))
    | |- context [match ?x with Some _ => _ | None => _ end] => destruct x
    | C : _ /\ _ |- _ => destruct C
    end; auto; try (split; [split; reflexivity|exact I]).
  - exact (IHp (updI o f (Some v)) C).
  - exact (IHp (updB o f (Some v)) C).
  - exact (IHp (updF o f (Some v)) C).
  - specialize (IHp (updN o f v) ltac:(assumption)). destruct (run p _); auto. destruct IHp as ((E1 & E2) & _).
    split; [split; [|exact E2]|exact I]. rewrite E1. unfold updN; cbn [oN]. destruct (nfield_eq_dec N_compute_surfs f); [congruence|auto].
  - specialize (IHp (updA o f (aput (oA o f) i x)) ltac:(assumption)). destruct (run p _); auto.
    destruct IHp as ((E1 & E2) & _). split; [split; [exact E1|]|exact I]. rewrite E2. unfold updA; cbn [oA]. destruct (afield_eq_dec A_s_in f); [congruence|auto].
  - specialize (IHp (updA o f v) ltac:(assumption)). destruct (run p _); auto.
    destruct IHp as ((E1 & E2) & _). split; [split; [exact E1|]|exact I]. rewrite E2. unfold updA; cbn [oA]. destruct (afield_eq_dec A_s_in f); [congruence|auto].
  - specialize (IHp o C). destruct (run p o); cbn; auto.
Qed.
Lemma forces_r {A B} (p : prog A) (k : A -> prog B) o G : calm p -> (forall a o', same o o' -> forces (k a) o' G) -> forces (bind p k) o G.
Proof.
  intros C H. pose proof (calm_forces p o C) as K. unfold forces in *. rewrite bind_run. destruct (run p o) as [a o' ev| |]; auto.
  destruct K as (K & _). specialize (H a o' K). unfold same in *. destruct (run (k a) o'); auto. intuition congruence.
Qed.
Lemma forces_l {A B} (p : prog A) (k : A -> prog B) o G : forces p o G -> (forall a, calm (k a)) -> forces (bind p k) o G.
Proof.
  intros H C. unfold forces in *. rewrite bind_run. destruct (run p o) as [a o' ev| |]; auto.
  destruct H as (K & HG). pose proof (calm_forces (k a) o' (C a)) as H. unfold forces, same in *. destruct (run (k a) o'); auto. intuition congruence.
Qed.

Lemma calm_int z : calm (int_ z). Proof. unfold int_. destruct (in_int z); exact I. Qed.
Lemma calm_iadd a b : calm (iadd a b). Proof. apply calm_int. Qed.
Lemma calm_isub a b : calm (isub a b). Proof. apply calm_int. Qed.
Lemma calm_imul a b : calm (imul a b). Proof. apply calm_int. Qed.
Lemma calm_idiv a b : calm (idiv a b). Proof. unfold idiv. destruct (b =? 0); [exact I|apply calm_int]. Qed.
Lemma calm_iabs a : calm (iabs a). Proof. apply calm_int. Qed.
Lemma calm_vget {T} (a : array T) i : calm (vget a i). Proof. unfold vget. destruct (znth _ _) as [[]|]; exact I. Qed.
Lemma calm_vset {T} (a : array T) i x : calm (vset a i x). Proof. unfold vset. destruct (znth _ _) as [[]|]; exact I. Qed.
Lemma calm_mget {T} (a : array T) i j : calm (mget a i j). Proof. unfold mget. destruct (inside _ _ _ _); [apply calm_vget|exact I]. Qed.
Lemma calm_mset {T} (a : array T) i j x : calm (mset a i j x). Proof. unfold mset. destruct (inside _ _ _ _); [apply calm_vset|exact I]. Qed.
Lemma calm_vinc a i x : calm (vinc a i x). Proof. apply calm_bind; [apply calm_vget|intro; apply calm_vset]. Qed.
Lemma calm_zeros {T} (z : T) r c : calm (zeros z r c). Proof. unfold zeros. destruct (_ || _); exact I. Qed.
Lemma calm_resize {T} (a : array T) r c : calm (resize a r c). Proof. unfold resize. destruct (_ || _); [exact I|]. destruct (_ =? _); exact I. Qed.
Lemma calm_getm f i j : calm (getm f i j). Proof. intros r c. destruct (inside _ _ _ _); cbn; auto. Qed.
Lemma calm_putm f i j x : f <> A_s_in -> calm (putm f i j x). Proof. intros H r c. destruct (inside _ _ _ _); cbn; auto. Qed.
Lemma calm_incm f i j x : f <> A_s_in -> calm (incm S f i j x).
Proof. intros. apply calm_bind; [apply calm_getm|intro; now apply calm_putm]. Qed.

Ltac cm1 :=
  match goal with
  | |- calm (let '_ := ?x in _) => destruct x
  | |- calm (match ?x with _ => _ end) => destruct x
  | |- calm (bind _ _) => apply calm_bind; [|intro]
  | |- calm (for_ _ _ _ _) => apply calm_for; intros
  | |- _ /\ _ => split
  | |- forall _, _ => intro
  | |- _ <> _ => discriminate
  | |- True => exact I
  | |- calm (if ?b then _ else _) => destruct b
  | |- calm (Ret _) => exact I
  | |- calm (geti _) => intro; exact I
  | |- calm (getb _) => intro; exact I
  | |- calm (getf _) => intro; exact I
  | |- calm (seti _ _) => exact I
  | |- calm (setb _ _) => exact I
  | |- calm (setf _ _) => exact I
  | |- calm (getn _ _) => intro; exact I
  | |- calm (sizen _) => intro; exact I
  | |- calm (setn _ _) => split; [discriminate|exact I]
  | |- calm (getv _ _) => intro; exact I
  | |- calm (putv _ _ _) => split; [discriminate|exact I]
  | |- calm (getarr _) => intro; exact I
  | |- calm (setarr _ _) => split; [discriminate|exact I]
  | |- calm (out _ _ _) => exact I
  | |- calm (incs _ _ _ _) => cbn [incs]
  | |- calm (incm _ _ _ _ _) => apply calm_incm
  | _ => first [apply calm_iadd|apply calm_isub|apply calm_imul|apply calm_idiv|apply calm_iabs|apply calm_vget|apply calm_vset|apply calm_mget
               |apply calm_mset|apply calm_vinc|apply calm_zeros|apply calm_resize|apply calm_getm]
  end.
Ltac cm := repeat cm1.

Lemma calm_it_rec n m cs : calm (it_rec S n m cs). Proof. unfold it_rec. cm. Qed.
Lemma calm_init_trig a b t m n f : calm (init_trig S a b t m n f).
Proof. unfold init_trig, it_first, it_second. cm; apply calm_it_rec. Qed.
Lemma calm_modes a b c d : calm (init_modes S a b c d). Proof. unfold init_modes. cm. Qed.
Lemma calm_grid a b c d : calm (init_grid S a b c d). Proof. unfold init_grid. cm. Qed.
Lemma calm_surface js : calm (surface_solve S js).
Proof.
  unfold surface_solve, surface_angles, transp, vcoords_rz, vcoords_w, harfun, vexpr, half_weights, halve, accumulate, check_accuracy,
    check_indices, check_sum, at4. cm; apply calm_init_trig.
Qed.

(** All the selected surfaces are elements of s_in. *)
Definition selected (o : obj) : Prop := forall j, 0 <= j < asize (oN o N_compute_surfs) ->
  exists js x, znth (adata (oN o N_compute_surfs)) j = Some (Some js) /\ znth (adata (oA o A_s_in)) js = Some (Some x).
Lemma same_selected o o' : same o o' -> selected o' -> selected o.
Proof. unfold selected. intros (-> & ->). auto. Qed.
Lemma loop_forces n j a o : forces (for_from n j a (fun j s_b =>
    bind (getn N_compute_surfs j) (fun js => bind (getv A_s_in js) (fun x => vset s_b j x)))) o
  (forall k, j <= k < j + Z.of_nat n -> exists js x, znth (adata (oN o N_compute_surfs)) k = Some (Some js) /\ znth (adata (oA o A_s_in)) js = Some (Some x)).
Proof.
  revert j a. induction n as [|n IH]; intros j a.
  - cbn. unfold forces, same. cbn. splits; auto. intros; lia.
  - unfold forces. cbn [for_from bind getn getv run]. destruct (znth (adata (oN o N_compute_surfs)) j) as [[js|]|] eqn:E1; auto.
    destruct (znth (adata (oA o A_s_in)) js) as [[x|]|] eqn:E2; auto. unfold vset. destruct (znth (adata a) j); cbn; auto.
    specialize (IH (j + 1) (aput a j x)). unfold forces in IH. destruct (run _ o); auto. destruct IH as (I1 & I2). split; [exact I1|].
    intros k Hk. destruct (Z.eq_dec k j) as [->|]; [eauto|apply I2; lia].
Qed.
Lemma init_forces o : forces (init S) o (selected o).
Proof.
  unfold init.
  assert (Last : forall o1, same o o1 -> forall k : Z -> prog unit,
    (forall o2, same o o2 -> forces (k (asize (oN o N_compute_surfs))) o2 (selected o)) -> forces (bind (sizen N_compute_surfs) k) o1 (selected o)).
  { intros o1 E k H. unfold forces. cbn [bind sizen run]. destruct E as (E1 & E2). rewrite E1. specialize (H o1 (conj E1 E2)).
    unfold forces in H. destruct (run _ o1); auto. }
  assert (T : forall a b, same o a -> same a b -> same o b) by (unfold same; intuition congruence).
  assert (R : same o o) by (split; reflexivity).
  assert (Down : forall {A} (p : prog A) (k : A -> prog unit) o1, same o o1 -> calm p ->
    (forall a o2, same o o2 -> forces (k a) o2 (selected o)) -> forces (bind p k) o1 (selected o)).
  { intros A p k o1 E C H. apply forces_r; auto. intros a o2 E2. apply H. eauto. }
  repeat match goal with
  | |- forces (let '_ := ?x in _) _ _ => destruct x
  | |- forces (bind (sizen N_compute_surfs) _) _ _ => fail 1
  | |- forces (bind _ _) _ _ => apply Down; [assumption|solve [cm; auto using calm_modes, calm_grid, calm_init_trig]|intros ? ? ?]
  end.
  apply Last; [assumption|]. intros p2 E2.
  apply Down; [assumption|cm|intros ? p3 E3]. apply Down; [assumption|cm|intros ? p4 E4]. apply Down; [assumption|cm|intros sb p5 E5].
  apply forces_l; [|intro; cm].
  pose proof (loop_forces (Z.to_nat (asize (oN o N_compute_surfs) - 0)) 0 sb p5) as L. unfold for_, forces in *. destruct (run _ p5); auto.
  destruct L as (L1 & L2). split; auto. intros j Hj. destruct E5 as (<- & <-). apply L2. lia.
Qed.
Theorem run_forces o : forces (bx_run S) o (selected o).
Proof.
  unfold bx_run, run_head. apply forces_l; [|intro; cm; apply calm_surface].
  apply forces_r; [cm|intros v o1 E1]. apply forces_r; [cm|intros ? o2 E2]. apply forces_l; [|intro; cm].
  pose proof (init_forces o2) as H. unfold forces in *. destruct (run _ o2); auto. destruct H as (H1 & H2). split; auto.
  apply (same_selected o o1); auto. now apply (same_selected o1 o2).
Qed.

Theorem run_never_throws (o : obj) msg o' ev : run (bx_run S) o <> RThrow msg o' ev.
Proof. intros E. pose proof (run_forces o) as H. unfold forces in H. now rewrite E in H. Qed.
Theorem bad_surface (o : obj) j js : wf_obj o -> elemN o N_compute_surfs j = Some (Some js) -> ~ 0 <= js < asize (oA o A_s_in) ->
  exists why, run (bx_run S) o = RUB why.
Proof.
  intros W Hj Hn. pose proof (run_forces o) as H. unfold forces in H. destruct (run (bx_run S) o); [|contradiction|eauto].
  exfalso. destruct H as (_ & H). unfold elemN in Hj. destruct ((0 <=? j) && (j <? _)) eqn:E; [|discriminate].
  apply andb_true_iff in E. rewrite Z.leb_le, Z.ltb_lt in E. destruct (H j E) as (js' & x & E1 & E2). rewrite Hj in E1. injection E1 as <-.
  apply Hn. assert (K : exists c, znth (adata (oA o A_s_in)) js = Some c) by eauto. apply znth_Some in K. destruct (wf_A _ W A_s_in) as (_ & _ & El). unfold asize. now rewrite <- El.
Qed.
End BadSurf.

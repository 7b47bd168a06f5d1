(** Inputs that are documented as not used or not needed. *)
From Coq Require Import ZArith List String Bool Lia.
From Verif Require Import Scalar Prog Model Wp Func Step RunProof FuncExt Spec RunThms Vmec VmecSpec VmecThms BadSurf Par.
Import ListNotations.
Local Open Scope Z_scope.

Ltac splits := repeat match goal with |- _ /\ _ => split end.

(** ** init_from_vmec with asym = false *)
Section Sym.
Variable S : Scalar.
Notation prog := (prog S).
Notation obj := (obj S).

Fixpoint nosetB {A} (p : prog A) : Prop :=
  match p with
  | Ret _ | Throw _ | UB _ => True
  | GetI _ k => forall v, nosetB (k v)
  | SetI _ _ k => nosetB k
  | GetB _ k => forall v, nosetB (k v)
  | SetB _ _ k => False
  | GetF _ k => forall v, nosetB (k v)
  | SetF _ _ k => nosetB k
  | GetN _ _ k => forall v, nosetB (k v)
  | SizeN _ k => forall v, nosetB (k v)
  | SetNArr _ _ k => nosetB k
  | GetA _ _ k => forall v, nosetB (k v)
  | PutA _ _ _ k => nosetB k
  | DimA _ k => forall r c, nosetB (k r c)
  | GetArr _ k => forall v, nosetB (k v)
  | SetArr _ _ k => nosetB k
  | Out _ k => nosetB k
  end.
Lemma nosetB_bind {A B} (p : prog A) (k : A -> prog B) : nosetB p -> (forall a, nosetB (k a)) -> nosetB (bind p k).
Proof. induction p; cbn; intuition. Qed.
Lemma nosetB_for {St} lo hi (st : St) (body : Z -> St -> prog St) : (forall i s, nosetB (body i s)) -> nosetB (for_ lo hi st body).
Proof.
  intros Hb. unfold for_. generalize (Z.to_nat (hi - lo)). intros n. revert lo st. induction n as [|n IH]; intros; cbn; auto.
  apply nosetB_bind; auto.
Qed.
Lemma nosetB_run {A} (p : prog A) : forall (o : obj) a o' ev, nosetB p -> run p o = ROk a o' ev -> forall f, oB o' f = oB o f.
Proof.
  induction p; cbn [nosetB run]; intros o a0 o' ev0 N R g; try contradiction; try discriminate;
    try (match type of R with context [match ?x with _ => _ end] => destruct x as [[]|] eqn:?; try discriminate end);
    try (match type of R with context [match ?x with _ => _ end] => destruct x eqn:?; try discriminate end);
    try (now injection R as <- <- <-);
    try (match goal with H : forall v o a o' ev, nosetB (?k v) -> _, R : run (?k ?v) ?o = _ |- _ => apply (H v o _ _ _ (N v) R) end);
    try (match goal with H : forall r c o a o' ev, nosetB (?k r c) -> _, R : run (?k ?r ?c) ?o = _ |- _ => apply (H r c o _ _ _ (N r c) R) end);
    try (apply (IHp _ _ _ _ N R)).
  all: try (destruct (run p o) eqn:E; cbn in R; try discriminate; injection R as <- <- <-; eapply IHp; eauto).
Qed.

Definition sym_eq {A} (p q : prog A) : Prop := forall o : obj, oB o B_asym = Some false -> run p o = run q o.
Lemma sym_bind {A B} (p : prog A) (k k' : A -> prog B) : nosetB p -> (forall a, sym_eq (k a) (k' a)) -> sym_eq (bind p k) (bind p k').
Proof.
  intros N H o E. rewrite !bind_run. destruct (run p o) as [a o' ev| |] eqn:R; auto.
  rewrite (H a o'); auto. rewrite (nosetB_run p o a o' ev N R). exact E.
Qed.
Lemma sym_bind_l {A B} (p q : prog A) (k : A -> prog B) : sym_eq p q -> sym_eq (bind p k) (bind q k).
Proof. intros H o E. rewrite !bind_run. now rewrite (H o E). Qed.
Lemma sym_bind2 {A B} (p q : prog A) (k k' : A -> prog B) : nosetB p -> sym_eq p q -> (forall a, sym_eq (k a) (k' a)) -> sym_eq (bind p k) (bind q k').
Proof. intros N H K o E. rewrite (sym_bind p k k' N K o E). now apply sym_bind_l. Qed.
Lemma sym_refl {A} (p : prog A) : sym_eq p p. Proof. intros o E. reflexivity. Qed.
Lemma sym_if {A} (k k' : bool -> prog A) : sym_eq (k false) (k' false) -> sym_eq (bind (getb B_asym) k) (bind (getb B_asym) k').
Proof. intros H o E. cbn. rewrite E. now apply H. Qed.

Ltac ns1 :=
  match goal with
  | |- nosetB (let '_ := ?x in _) => destruct x
  | |- nosetB (match ?x with _ => _ end) => destruct x
  | |- nosetB (bind _ _) => apply nosetB_bind; [|intro]
  | |- nosetB (for_ _ _ _ _) => apply nosetB_for; intros
  | |- nosetB (reject _ ?b _) => unfold reject; destruct b
  | |- nosetB (int_ _) => unfold int_; destruct (in_int _)
  | |- nosetB (iadd _ _) => unfold iadd
  | |- nosetB (isub _ _) => unfold isub
  | |- nosetB (imul _ _) => unfold imul
  | |- nosetB (irem _ ?b) => unfold irem; destruct (b =? 0)
  | |- nosetB (vget ?a ?i) => unfold vget; destruct (znth (adata a) i) as [[]|]
  | |- nosetB (vset ?a ?i _) => unfold vset; destruct (znth (adata a) i) as [[]|]
  | |- nosetB (mget _ _ _) => unfold mget; destruct (inside _ _ _ _)
  | |- nosetB (mset _ _ _ _) => unfold mset; destruct (inside _ _ _ _)
  | |- nosetB (zeros _ _ _) => unfold zeros; destruct (_ || _)
  | |- nosetB (resize _ _ _) => unfold resize; destruct (_ || _); [|destruct (_ =? _)]
  | |- nosetB (elems _ _) => unfold elems
  | |- nosetB (elems_n _ _) => unfold elems_n
  | |- nosetB (resize_member _ _ _ _) => unfold resize_member
  | |- nosetB (fill_vec _ _ _ _) => unfold fill_vec
  | |- nosetB (drop_first _ _ _ _ _) => unfold drop_first
  | |- nosetB (interp _ _ _ _ _ _ _) => unfold interp
  | |- nosetB (vet_cols _ _ _) => unfold vet_cols; cbn [fold_right]
  | |- nosetB (vet_rows _ _) => unfold vet_rows; cbn [fold_right]
  | |- nosetB (store_profiles _ _ _) => unfold store_profiles
  | |- nosetB (store_half _ _ _) => unfold store_half
  | |- nosetB (report _ _) => unfold report
  | |- nosetB (radial_grids _ _) => unfold radial_grids
  | |- nosetB (vet _ _) => unfold vet; cbv zeta
  | |- nosetB (Ret _) => exact I
  | |- nosetB (Throw _) => exact I
  | |- nosetB (UB _) => exact I
  | |- nosetB (geti _) => intro; exact I
  | |- nosetB (getb _) => intro; exact I
  | |- nosetB (getn _ _) => intro; exact I
  | |- nosetB (sizen _) => intro; exact I
  | |- nosetB (getv _ _) => intro; exact I
  | |- nosetB (getarr _) => intro; exact I
  | |- nosetB (seti _ _) => exact I
  | |- nosetB (setf _ _) => exact I
  | |- nosetB (setn _ _) => exact I
  | |- nosetB (setarr _ _) => exact I
  | |- nosetB (out _ _ _) => exact I
  end.
Ltac ns := repeat ns1.

(** The same arguments, except those that are documented as ignored *)
Record same_sym_args (v v' : vargs S) : Prop := mkSSA {
  sa_ns : v_ns S v' = v_ns S v; sa_iotas : v_iotas S v' = v_iotas S v;
  sa_rmnc : v_rmnc S v' = v_rmnc S v; sa_zmns : v_zmns S v' = v_zmns S v; sa_lmns : v_lmns S v' = v_lmns S v;
  sa_bmnc : v_bmnc S v' = v_bmnc S v; sa_bsubumnc : v_bsubumnc S v' = v_bsubumnc S v; sa_bsubvmnc : v_bsubvmnc S v' = v_bsubvmnc S v;
  sa_phip : v_phip S v' = v_phip S v; sa_chi : v_chi S v' = v_chi S v; sa_pres : v_pres S v' = v_pres S v; sa_phi : v_phi S v' = v_phi S v
}.
Ltac se := repeat (apply sym_bind; [solve [ns]|intro]).
Theorem vmec_ignores (o : obj) v v' : oB o B_asym = Some false -> same_sym_args v v' -> run (init_from_vmec S v') o = run (init_from_vmec S v) o.
Proof.
  destruct v as [a1 a2 a3 a4 a5 a6 a7 a8 a9 a10 a11 a12 a13 a14 a15 a16 a17 a18], v' as [b1 b2 b3 b4 b5 b6 b7 b8 b9 b10 b11 b12 b13 b14 b15 b16 b17 b18].
  intros E [E1 E2 E3 E4 E5 E6 E7 E8 E9 E10 E11 E12].
  cbn [v_ns v_iotas v_rmnc v_zmns v_lmns v_bmnc v_bsubumnc v_bsubvmnc v_phip v_chi v_pres v_phi] in *. subst.
  revert o E. match goal with |- forall o, _ -> run ?p o = run ?q o => change (sym_eq p q) end.
  unfold init_from_vmec. cbn [Vmec.v_ns].
  apply sym_bind; [ns|intro nsi]. apply sym_bind; [ns|intro u0].
  apply sym_bind2; [ns| |intro u1].
  { unfold vet. cbn [Vmec.v_ns Vmec.v_iotas Vmec.v_phip Vmec.v_chi Vmec.v_pres Vmec.v_phi Vmec.v_rmnc Vmec.v_zmns Vmec.v_lmns Vmec.v_bmnc Vmec.v_bsubumnc Vmec.v_bsubvmnc]. cbv zeta.
    repeat first [apply sym_if; apply sym_bind_l; exact (sym_refl _) | apply sym_bind; [solve [ns]|intro]]. }
  apply sym_bind2; [ns|exact (sym_refl _)|intro u2].
  apply sym_bind2; [ns| |intro u3].
  { unfold store_half. cbn [Vmec.v_lmns Vmec.v_bmnc Vmec.v_bsubumnc Vmec.v_bsubvmnc].
    repeat first [apply sym_if; exact (sym_refl _) | apply sym_bind; [solve [ns]|intro]]. }
  apply sym_bind2; [ns|exact (sym_refl _)|intro u4].
  apply sym_bind; [ns|intros [full half]]. apply sym_bind; [ns|intro mn]. apply sym_if. exact (sym_refl _).
Qed.
End Sym.

(** ** s_in *)
Section SIn.
Context {S : Scalar}.
Notation obj := (obj S).
Definition with_sin (i : Inp S) (g : Z -> F S) : Inp S :=
  {| asym := asym i; nfp := nfp i; mpol := mpol i; ntor := ntor i; mnmax := mnmax i; mpolq := mpolq i;
     ntorq := ntorq i; mnmaxq := mnmaxq i; nsin := nsin i; mboz := mboz i; nboz := nboz i; verb := verb i;
     xm := xm i; xn := xn i; xmq := xmq i; xnq := xnq i; nsurf := nsurf i; surf := surf i;
     sin_ := g; iota := iota i; rmnc := rmnc i; zmns := zmns i; lmns := lmns i; bmnc := bmnc i;
     bsubumnc := bsubumnc i; bsubvmnc := bsubvmnc i; rmns := rmns i; zmnc := zmnc i; lmnc := lmnc i;
     bmns := bmns i; bsubumns := bsubumns i; bsubvmns := bsubvmns i |}.
Lemma with_sin_valid (o : obj) i a g : valid o i -> vec_is a (nsin i) g -> valid (updA o A_s_in a) (with_sin i g).
Proof.
  intros (Hok & R & W) Ha. split; [destruct Hok; constructor; auto|]. split.
  - destruct R. constructor; cbn; auto.
  - destruct W as [W1 W2]. constructor; auto. intros f. cbn. destruct (afield_eq_dec f A_s_in); auto. eapply vec_is_wf; eauto.
Qed.
Theorem s_in_for_s_b (o : obj) i a g : valid o i -> vec_is a (nsin i) g ->
  exists r r' ev s, run_ok o r ev /\ run_ok (updA o A_s_in a) r' ev /\
    obj_eq r' (updA (updA r A_s_in a) A_s_b s).
Proof.
  intros V Ha. destruct (run_total o i V) as (r & E & RF & R & G & Q & _).
  destruct (run_total _ _ (with_sin_valid o i a g V Ha)) as (r' & E' & RF' & R' & G' & Q' & _).
  exists r, r', (run_events S i), (oA r' A_s_b). splits; auto.
  change (asym (with_sin i g)) with (asym i) in *.
  apply (run_members (updA o A_s_in a) (updA o A_s_in a) r' _ (with_sin i g)); auto.
  - destruct RF as [F1 F2 F3 F4 F5]. constructor; auto. intros f Hf. cbn.
    destruct (afield_eq_dec f A_s_b) as [->|]; [discriminate|]. destruct (afield_eq_dec f A_s_in); auto.
  - destruct G. constructor; try assumption. exact (q_s_b _ _ _ Q').
  - destruct Q, Q'. constructor; auto. intros f Hf. cbn. destruct (afield_eq_dec f A_s_b) as [->|].
    { exfalso. unfold outs in Hf. cbn in Hf. destruct (asym i); cbn in Hf; repeat (destruct Hf as [Hf|Hf]; [discriminate|]); auto. }
    destruct (afield_eq_dec f A_s_in) as [->|]; [|apply q_out; auto].
    exfalso. unfold outs in Hf. cbn in Hf. destruct (asym i); cbn in Hf; repeat (destruct Hf as [Hf|Hf]; [discriminate|]); auto.
Qed.
(** run() reads it, so it has to be there. *)
Theorem s_in_missing (o : obj) i : valid o i -> 1 <= nsurf i -> exists why, run (bx_run S) (updA o A_s_in empty_vec) = RUB why.
Proof.
  intros V Hn. destruct V as (Hok & R & W). apply (bad_surface S (updA o A_s_in empty_vec) 0 (surf i 0)).
  - destruct W as [W1 W2]. constructor; auto. intros f. cbn. destruct (afield_eq_dec f A_s_in); auto. unfold wf_arr; cbn; lia.
  - apply (elemN_vec (updA o A_s_in empty_vec) N_compute_surfs (nsurf i) (surf i)); [apply R|lia].
  - cbn. unfold asize, empty_vec. cbn. lia.
Qed.

(** ** lmns with mnmax_nyq rows *)
Definition slim : Inp S :=
  {| asym := false; nfp := 1; mpol := 2; ntor := 0; mnmax := 2; mpolq := 1; ntorq := 0; mnmaxq := 1;
     nsin := 1; mboz := 1; nboz := 0; verb := 0;
     xm := fun k => k; xn := fun _ => 0; xmq := fun _ => 0; xnq := fun _ => 0;
     nsurf := 1; surf := fun _ => 0; sin_ := fun _ => f0 S; iota := fun _ => f1 S;
     rmnc := fun _ _ => f1 S; zmns := fun _ _ => f1 S; lmns := fun _ _ => f0 S;
     bmnc := fun _ _ => f1 S; bsubumnc := fun _ _ => f0 S; bsubvmnc := fun _ _ => f1 S;
     rmns := fun _ _ => f0 S; zmnc := fun _ _ => f0 S; lmnc := fun _ _ => f0 S;
     bmns := fun _ _ => f0 S; bsubumns := fun _ _ => f0 S; bsubvmns := fun _ _ => f0 S |}.
Lemma slim_valid : valid (obj_of slim) slim.
Proof.
  split; [|split; [apply obj_of_repr|apply obj_of_wf]; cbn; lia].
  constructor; cbn [slim nfp mpol ntor mnmax mpolq ntorq mnmaxq nsin mboz nboz nsurf xm xn xmq xnq surf];
    unfold INT_MAX; try (intros; lia); try (vm_compute; discriminate).
  all: try (intros k Hk; split; [lia|]; vm_compute; discriminate).
Qed.
Theorem lmns_size : exists (o : obj) i a g, valid o i /\ mat_is a (mnmaxq i) (nsin i) g /\
  exists why, run (bx_run S) (updA o A_lmns a) = RUB why.
Proof.
  exists (obj_of slim), slim, (tabm 1 1 (fun _ _ => f0 S)), (fun _ _ => f0 S). splits.
  - apply slim_valid.
  - apply tabm_is; cbn; lia.
  - eexists. vm_compute. reflexivity.
Qed.
End SIn.

Lemma needed_case (S : Scalar) : exists (v v' : vargs S), same_sym_args S v v' /\
  v' <> v /\ oB (obj_of (vex S false 1 2 two_surfs)) B_asym = Some false /\
  exists o' ev, run (init_from_vmec S v) (obj_of (vex S false 1 2 two_surfs)) = ROk tt o' ev.
Proof.
  set (v := args_of S (vex S false 1 2 two_surfs) (vexd S false 4)).
  exists v, (mkVargs S (v_ns S v) (v_iotas S v) (v_rmnc S v) (mkArr 7 1 (repeat None 7)) (v_zmnc S v) (v_zmns S v) (v_lmnc S v) (v_lmns S v) (v_bmnc S v) (v_bmns S v)
    (v_bsubumnc S v) (v_bsubumns S v) (v_bsubvmnc S v) (v_bsubvmns S v) (v_phip S v) (v_chi S v) (v_pres S v) (v_phi S v)). splits.
  - constructor; reflexivity.
  - intros X. apply (f_equal (fun x => acols (v_rmns S x))) in X. vm_compute in X. discriminate.
  - reflexivity.
  - destruct (accepts _ _ _ _ (vex_accepted S false false)) as (o' & ev & H). exists o', ev. exact H.
Qed.
Lemma s_in_case (S : Scalar) asy : valid (obj_of (ex_inp S asy)) (ex_inp S asy) /\ 1 <= nsurf (ex_inp S asy) /\
  vec_is (tab 3 (fun k => fofZ S (k + 7))) (nsin (ex_inp S asy)) (fun k => fofZ S (k + 7)).
Proof. split; [apply ex_valid|]. split; [cbn; lia|]. apply tab_is. cbn. lia. Qed.
Lemma s_in_refuted (S : Scalar) : exists (o : obj S) i, valid o i /\
  exists why, run (bx_run S) (updA o A_s_in empty_vec) = RUB why.
Proof.
  exists (obj_of (ex_inp S false)), (ex_inp S false). split; [apply ex_valid|].
  apply (s_in_missing _ (ex_inp S false)); [apply ex_valid|cbn; lia].
Qed.

(** Interleaving semantics for the surface loop of run(), and the proof that threads which
    stay in disjoint footprints do not interact.

    run.cpp:22-25 is [#pragma omp parallel for] over surfaces.  OpenMP gives each thread some
    of the iterations, which it executes one after another; which ones, and how the threads
    interleave, is not specified.  Here a team is a list of programs over one shared object;
    one step executes one access to a member (or one insertion into std::cout) of any one of
    them.  The absence of data races, proved below, is what makes the interleaving
    semantics valid for C++. *)
From Coq Require Import ZArith List String Bool Lia Permutation.
From Verif Require Import Scalar Prog Model Wp Func Step TrigProof InitProof SurfProof RunProof.
Import ListNotations.
Local Open Scope Z_scope.

Section Par.
Context {S : Scalar}.
Notation obj := (obj S).
Notation event := (event S).

(** ** One step of one program *)
Inductive next (A : Type) : Type :=
| NRet                                              (* finished *)
| NFail                                             (* undefined behaviour, or an escaping exception *)
| NStep (p : prog S A) (o : obj) (e : option event).
Arguments NRet {A}. Arguments NFail {A}. Arguments NStep {A}.

Definition pstep {A} (p : prog S A) (o : obj) : next A :=
  match p with
  | Ret _ => NRet
  | Throw _ => NFail
  | UB _ => NFail
  | GetI f k => match oI o f with Some v => NStep (k v) o None | None => NFail end
  | SetI f v k => NStep k (updI o f (Some v)) None
  | GetB f k => match oB o f with Some v => NStep (k v) o None | None => NFail end
  | SetB f v k => NStep k (updB o f (Some v)) None
  | GetF f k => match oF o f with Some v => NStep (k v) o None | None => NFail end
  | SetF f v k => NStep k (updF o f (Some v)) None
  | GetN f i k => match znth (adata (oN o f)) i with Some (Some v) => NStep (k v) o None | _ => NFail end
  | SizeN f k => NStep (k (asize (oN o f))) o None
  | SetNArr f v k => NStep k (updN o f v) None
  | GetA f i k => match znth (adata (oA o f)) i with Some (Some v) => NStep (k v) o None | _ => NFail end
  | PutA f i x k =>
      match znth (adata (oA o f)) i with
      | Some _ => NStep k (updA o f (aput (oA o f) i x)) None
      | None => NFail
      end
  | DimA f k => NStep (k (arows (oA o f)) (acols (oA o f))) o None
  | GetArr f k => NStep (k (oA o f)) o None
  | SetArr f v k => NStep k (updA o f v) None
  | Out e k => NStep k o (Some e)
  end.

(** ** Memory locations and data races *)
Inductive loc : Type :=
| LI (f : ifield) | LB (f : bfield) | LF (f : ffield) | LN (f : nfield)
| LHead (f : afield)             (* the sizes and the data pointer of an Eigen array *)
| LCell (f : afield) (i : Z)     (* one element *)
| LAll (f : afield).             (* all the elements *)

Definition overlap (a b : loc) : Prop :=
  match a, b with
  | LI f, LI g => f = g
  | LB f, LB g => f = g
  | LF f, LF g => f = g
  | LN f, LN g => f = g
  | LHead f, LHead g => f = g
  | LCell f i, LCell g j => f = g /\ i = j
  | LCell f _, LAll g => f = g
  | LAll f, LCell g _ => f = g
  | LAll f, LAll g => f = g
  | _, _ => False
  end.

(** What the next step of a program touches; [true] is a write.  Insertions into std::cout
    do not race (synchronised standard stream). *)
Definition access {A} (p : prog S A) : list (loc * bool) :=
  match p with
  | Ret _ | Throw _ | UB _ | Out _ _ => []
  | GetI f _ => [(LI f, false)]
  | SetI f _ _ => [(LI f, true)]
  | GetB f _ => [(LB f, false)]
  | SetB f _ _ => [(LB f, true)]
  | GetF f _ => [(LF f, false)]
  | SetF f _ _ => [(LF f, true)]
  | GetN f _ _ => [(LN f, false)]
  | SizeN f _ => [(LN f, false)]
  | SetNArr f _ _ => [(LN f, true)]
  | GetA f i _ => [(LHead f, false); (LCell f i, false)]
  | PutA f i _ _ => [(LHead f, false); (LCell f i, true)]
  | DimA f _ => [(LHead f, false)]
  | GetArr f _ => [(LHead f, false); (LAll f, false)]
  | SetArr f _ _ => [(LHead f, true); (LAll f, true)]
  end.

Definition conflict {A} (p q : prog S A) : Prop :=
  exists a v b w, In (a, v) (access p) /\ In (b, w) (access q) /\ overlap a b /\ v || w = true.

(** ** Teams *)
Definition team := list (prog S unit).
Record config : Type := mkCfg { cT : team; cO : obj; cLog : list (nat * event) }.

Inductive cstep : config -> config -> Prop :=
| cstep_one ths o log t p p' o' e :
    nth_error ths t = Some p ->
    pstep p o = NStep p' o' e ->
    cstep (mkCfg ths o log)
          (mkCfg (set_nth ths t p') o'
                 (log ++ match e with Some e => [(t, e)] | None => [] end)).

Inductive csteps : config -> config -> Prop :=
| csteps_refl c : csteps c c
| csteps_step c1 c2 c3 : csteps c1 c2 -> cstep c2 c3 -> csteps c1 c3.

Definition racy (c : config) : Prop :=
  exists t u p q, t <> u /\ nth_error (cT c) t = Some p /\ nth_error (cT c) u = Some q /\ conflict p q.
Definition failing (c : config) : Prop :=
  exists t p, nth_error (cT c) t = Some p /\ pstep p (cO c) = NFail.
Definition finished (c : config) : Prop :=
  forall t p, nth_error (cT c) t = Some p -> p = Ret tt.

(** The events printed by thread t, in order. *)
Definition proj (t : nat) (log : list (nat * event)) : list event :=
  map snd (filter (fun x => Nat.eqb (fst x) t) log).
Arguments proj : simpl never.

(** ** Every execution is finite *)
Definition sub (p' p : prog S unit) : Prop := exists o o' e, pstep p o = NStep p' o' e.
Lemma sub_wf : well_founded sub.
Proof.
  intros p. induction p; constructor; intros q (o & o' & e' & E); cbn in E;
    repeat match type of E with
    | match ?x with _ => _ end = _ => destruct x; try discriminate
    end; try discriminate; injection E as <- _ _; auto.
Qed.
Inductive vsub : team -> team -> Prop :=
| vsub_one ths t p p' : nth_error ths t = Some p -> sub p' p -> vsub (set_nth ths t p') ths.
Lemma vsub_wf : well_founded vsub.
Proof.
  intros ths. induction ths as [|p ths IH].
  - constructor. intros y H. inversion H; subst. destruct t; discriminate.
  - revert ths IH. induction p as [p IHp] using (well_founded_induction sub_wf).
    intros ths IH. induction IH as [ths IH0 IH1].
    constructor. intros y H. inversion H as [? t q q' E Hs]; subst.
    destruct t as [|t]; cbn in *.
    + injection E as ->. apply IHp; auto. constructor. exact IH0.
    + apply IH1. econstructor; eauto.
Qed.
Lemma cstep_wf : well_founded (fun c' c => cstep c c').
Proof.
  intros c. destruct c as [ths o log]. revert o log.
  induction ths as [ths IH] using (well_founded_induction vsub_wf). intros o log.
  constructor. intros c' H. inversion H; subst. apply IH. econstructor; [eassumption|].
  unfold sub. eauto.
Qed.

(** ** Stability of [wp] under the steps of others *)
Lemma upto_put_both (W : afield -> Z -> Prop) (o o' : obj) f k x :
  upto W o o' -> upto W (updA o f (aput (oA o f) k x)) (updA o' f (aput (oA o' f) k x)).
Proof.
  intros U. constructor; cbn; try apply U; intros g; destruct (afield_eq_dec g f) as [->|]; try apply U.
  - cbn. rewrite !zset_length. apply U.
  - intros l Hl. cbn. unfold zset, znth. destruct (Z.ltb_spec l 0); [reflexivity|].
    rewrite !set_nth_nth. destruct (_ =? _)%nat.
    + pose proof (u_cell _ _ _ U f l Hl) as E. unfold znth in E. destruct (Z.ltb_spec l 0); [lia|].
      now rewrite E.
    + pose proof (u_cell _ _ _ U f l Hl) as E. unfold znth in E. destruct (Z.ltb_spec l 0); [lia|].
      exact E.
Qed.

Lemma wp_stable {A} (P : fp) (W : afield -> Z -> Prop) (p : prog S A) :
  ~ fpSeq P ->
  (forall f k, fpR P f k -> ~ W f k) ->
  forall o o' Q, upto W o o' -> wp P p o Q ->
  wp P p o' (fun a o1' ev => exists o1, upto W o1 o1' /\ Q a o1 ev).
Proof.
  intros HS HR. induction p; intros o o' Q U HW; cbn [wp] in *; try contradiction; try tauto.
  - eauto.
  - destruct HW as (v & E & HW). exists v. rewrite (u_I _ _ _ U). eauto.
  - destruct HW as (v & E & HW). exists v. rewrite (u_B _ _ _ U). eauto.
  - destruct HW as (v & E & HW). exists v. rewrite (u_F _ _ _ U). eauto.
  - destruct HW as (v & E & HW). exists v. rewrite (u_N _ _ _ U). eauto.
  - rewrite (u_N _ _ _ U). eauto.
  - destruct HW as (Hr & v & E & HW). split; auto. exists v.
    rewrite (u_cell _ _ _ U) by auto. eauto.
  - destruct HW as (Hr & (c & E) & HW). split; auto. split.
    + apply znth_Some. rewrite (u_len _ _ _ U). apply znth_Some. eauto.
    + eapply IHp; [|exact HW]. apply upto_put_both. exact U.
  - rewrite (u_rows _ _ _ U), (u_cols _ _ _ U). eauto.
  - eapply IHp; [exact U|exact HW].
Qed.

(** ** One step of a confined program *)
Lemma wp_pstep {A} (P : fp) (p : prog S A) o Q :
  ~ fpSeq P -> wp P p o Q ->
  match pstep p o with
  | NRet => exists a, p = Ret a /\ Q a o []
  | NFail => False
  | NStep p' o' e =>
      upto (fpW P) o o' /\
      wp P p' o' (fun a o1 ev => Q a o1 (match e with Some e => [e] | None => [] end ++ ev))
  end.
Proof.
  intros HS HW. destruct p; cbn [wp pstep] in *; try contradiction; try tauto.
  - eauto.
  - destruct HW as (v & E & HW). rewrite E. split; [apply upto_refl|exact HW].
  - destruct HW as (v & E & HW). rewrite E. split; [apply upto_refl|exact HW].
  - destruct HW as (v & E & HW). rewrite E. split; [apply upto_refl|exact HW].
  - destruct HW as (v & E & HW). rewrite E. split; [apply upto_refl|exact HW].
  - split; [apply upto_refl|exact HW].
  - destruct HW as (_ & v & E & HW). rewrite E. split; [apply upto_refl|exact HW].
  - destruct HW as (Hw & (c & E) & HW). rewrite E. split; [|exact HW].
    apply upto_put; auto. assert (0 <= i < Z.of_nat (List.length (adata (oA o f)))) by (apply znth_Some; eauto). lia.
  - split; [apply upto_refl|exact HW].
  - split; [apply upto_refl|exact HW].
Qed.

(** The accesses of a confined program are in its footprint. *)
Lemma wp_access {A} (P : fp) (p : prog S A) o Q a w :
  ~ fpSeq P -> wp P p o Q -> In (a, w) (access p) ->
  (w = true -> exists f k, a = LCell f k /\ fpW P f k) /\
  (forall f k, a = LCell f k -> fpR P f k \/ fpW P f k) /\
  (forall f, a <> LAll f).
Proof.
  intros HS HW HI. destruct p; cbn [wp access] in *; try contradiction; try tauto;
    cbn in HI; repeat match goal with H : _ \/ _ |- _ => destruct H end; try contradiction; try tauto;
    match goal with H : (_, _) = (_, _) |- _ => injection H as <- <- end;
    (split; [|split]); try (intros; discriminate).
  - intros f0 k0 E. injection E as <- <-. tauto.
  - intros _. exists f, i. split; auto. tauto.
  - intros f0 k0 E. injection E as <- <-. tauto.
Qed.

(** ** Confined teams *)
Section Team.
Variable ths0 : team.
Variable o0 : obj.
Variable P : nat -> fp.
Variable Q : nat -> obj -> Prop.
Variable E : nat -> list event.
Hypothesis HSeq : forall t, ~ fpSeq (P t).
Hypothesis HDis : forall t u f k, t <> u -> fpW (P t) f k -> ~ fpR (P u) f k /\ ~ fpW (P u) f k.
Hypothesis HQ : forall t u o o', t <> u -> upto (fpW (P u)) o o' -> Q t o -> Q t o'.
Hypothesis HInit : forall t p, nth_error ths0 t = Some p ->
  wp (P t) p o0 (fun _ o ev => Q t o /\ ev = E t).

Definition Wall (f : afield) (k : Z) : Prop :=
  exists t, (t < List.length ths0)%nat /\ fpW (P t) f k.

Record cinv (c : config) : Prop := mkInv {
  ci_len : List.length (cT c) = List.length ths0;
  ci_upto : upto Wall o0 (cO c);
  ci_wp : forall t p, nth_error (cT c) t = Some p ->
    wp (P t) p (cO c) (fun _ o ev => Q t o /\ proj t (cLog c) ++ ev = E t)
}.

Lemma proj_app t l l' : proj t (l ++ l') = proj t l ++ proj t l'.
Proof. unfold proj. now rewrite filter_app, map_app. Qed.

Lemma cinv_init : cinv (mkCfg ths0 o0 []).
Proof.
  constructor; cbn; [reflexivity|apply upto_refl|].
  intros t p H. eapply wp_mono; [|apply HInit; exact H]. cbn. tauto.
Qed.

Lemma cinv_step c c' : cstep c c' -> cinv c -> cinv c'.
Proof.
  intros H [I1 I2 I3]. inversion H as [ths o log t p p' o' e Et Es]; subst. cbn in *.
  pose proof (wp_pstep _ _ _ _ (HSeq t) (I3 t p Et)) as Hw. rewrite Es in Hw. destruct Hw as (U & Hw).
  assert (Ht : (t < List.length ths)%nat) by (apply nth_error_Some; congruence).
  constructor; cbn.
  - now rewrite set_nth_length.
  - eapply upto_trans; [exact I2|]. eapply upto_weaken; [|exact U].
    intros f k Hf. exists t. split; auto. now rewrite <- I1.
  - intros u q Eu. rewrite set_nth_nth in Eu. destruct (Nat.eqb_spec t u) as [<-|Ne].
    + rewrite Et in Eu. injection Eu as <-. eapply wp_mono; [|exact Hw]. cbv beta.
      intros _ o2 ev (H1 & H2). split; auto. rewrite proj_app, <- app_assoc.
      destruct e; cbn in *; auto. unfold proj at 2. cbn. rewrite Nat.eqb_refl. cbn. exact H2.
    + eapply wp_mono; [|eapply wp_stable; [apply HSeq| |exact U|apply I3; exact Eu]].
      * cbv beta. intros _ o2 ev (o1 & U1 & H1 & H2). split.
        -- eapply HQ; [|exact U1|exact H1]. congruence.
        -- rewrite proj_app. replace (proj u (match e with Some e0 => [(t, e0)] | None => [] end)) with (@nil event).
           ++ rewrite app_nil_r. exact H2.
           ++ destruct e; auto. unfold proj. cbn. destruct (Nat.eqb_spec t u); [congruence|reflexivity].
      * intros f k Hr Hw'. destruct (HDis t u f k Ne Hw'). contradiction.
Qed.

Lemma cinv_steps c c' : csteps c c' -> cinv c -> cinv c'.
Proof. induction 1; auto. intros. eapply cinv_step; eauto. Qed.

Lemma cinv_safe c : cinv c -> ~ failing c /\ ~ racy c.
Proof.
  intros [I1 I2 I3]. split.
  - intros (t & p & Et & F). pose proof (wp_pstep _ _ _ _ (HSeq t) (I3 t p Et)) as Hw. now rewrite F in Hw.
  - intros (t & u & p & q & Ne & Et & Eu & a & v & b & w & Ha & Hb & Ho & Hvw).
    destruct (wp_access _ _ _ _ _ _ (HSeq t) (I3 t p Et) Ha) as (A1 & A2 & A3).
    destruct (wp_access _ _ _ _ _ _ (HSeq u) (I3 u q Eu) Hb) as (B1 & B2 & B3).
    apply orb_prop in Hvw. destruct Hvw as [-> | ->].
    + destruct (A1 eq_refl) as (f & k & -> & Hw). destruct b; cbn in Ho; try contradiction.
      * destruct Ho as (<- & <-). destruct (HDis t u f k Ne Hw). destruct (B2 _ _ eq_refl); contradiction.
      * now apply (B3 f0).
    + destruct (B1 eq_refl) as (f & k & -> & Hw). destruct a; cbn in Ho; try contradiction.
      * destruct Ho as (-> & ->). destruct (HDis u t f k) as (D1 & D2); auto.
        destruct (A2 _ _ eq_refl); contradiction.
      * now apply (A3 f0).
Qed.

(** An unfinished team can make a step. *)
Lemma cinv_progress c : cinv c -> finished c \/ exists c', cstep c c'.
Proof.
  intros [I1 I2 I3]. destruct c as [ths o log]. cbn in *.
  assert (G : (forall t p, nth_error ths t = Some p -> p = Ret tt) \/
              exists t p, nth_error ths t = Some p /\ p <> Ret tt /\ pstep p o <> NRet).
  { clear I1 I2 I3. induction ths as [|p ths IH].
    - left. intros [|t] q; discriminate.
    - destruct IH as [IH|(t & q & E1 & E2 & E3)].
      + destruct (pstep p o) eqn:Ep.
        * left. intros [|t] q Eq; cbn in Eq; [|eauto]. injection Eq as <-.
          destruct p; cbn in Ep; repeat match type of Ep with
            | match ?x with _ => _ end = _ => destruct x; try discriminate end; try discriminate.
          now destruct a.
        * right. exists 0%nat, p. cbn. rewrite Ep. split; [auto|]. split; [intros ->; discriminate|discriminate].
        * right. exists 0%nat, p. cbn. rewrite Ep. split; [auto|]. split; [intros ->; discriminate|discriminate].
      + right. exists (Datatypes.S t), q. auto. }
  destruct G as [G|(t & p & E1 & E2 & E3)]; [left; exact G|right].
  pose proof (wp_pstep _ _ _ _ (HSeq t) (I3 t p E1)) as Hw.
  destruct (pstep p o) as [| |p' o' e] eqn:Ep; [congruence|contradiction|].
  eexists. econstructor; eauto.
Qed.

Lemma cinv_finished c : cinv c -> finished c ->
  upto Wall o0 (cO c) /\
  forall t, (t < List.length ths0)%nat -> Q t (cO c) /\ proj t (cLog c) = E t.
Proof.
  intros [I1 I2 I3] HF. split; auto. intros t Ht.
  destruct (nth_error (cT c) t) as [p|] eqn:Et.
  - pose proof (I3 t p Et) as Hw. rewrite (HF t p Et) in Hw. cbn in Hw.
    rewrite app_nil_r in Hw. exact Hw.
  - apply nth_error_None in Et. lia.
Qed.

End Team.
End Par.

(** ** run() with a team of threads *)
Section ParRun.
Context {S : Scalar}.
Notation obj := (obj S).
Variable i : Inp S.
Hypothesis Hok : ok_inp i.

(** [assign]: for each thread, the surfaces it handles, in its order.  OpenMP guarantees that
    every iteration of the loop is executed exactly once. *)
Definition is_schedule (n : Z) (assign : list (list Z)) : Prop :=
  Permutation (List.concat assign) (zseq 0 (Z.to_nat n)).

Definition thread_fp (l : list Z) : fp :=
  mkFp (fun f k => shared f = true \/ owns S i l f k) (fun f k => owns S i l f k) False.

Lemma concat_disjoint (A : list (list Z)) : NoDup (List.concat A) -> forall t u b,
  t <> u -> In b (nth t A []) -> In b (nth u A []) -> False.
Proof.
  induction A as [|l A IH]; intros ND t u b Ne Ht Hu.
  - destruct t; contradiction.
  - cbn in ND.
    assert (D : forall x, In x l -> In x (List.concat A) -> False).
    { clear -ND. intros x H1 H2. revert ND H1. induction l as [|y l IHl]; cbn; [tauto|].
      intros ND Hx. apply NoDup_cons_iff in ND. destruct ND as (N1 & N2). destruct Hx as [->|Hx].
      - apply N1. apply in_or_app. auto.
      - auto. }
    assert (C : forall t x, In x (nth t A []) -> In x (List.concat A)).
    { intros t' x Hx. apply in_concat. exists (nth t' A []). split; auto.
      destruct (Nat.lt_ge_cases t' (List.length A)); [apply nth_In; auto|].
      rewrite nth_overflow in Hx by auto. contradiction. }
    destruct t as [|t], u as [|u]; cbn in *; [congruence|eauto|eauto|].
    assert (NoDup (List.concat A)).
    { clear -ND. induction l; cbn in *; auto. inversion ND; auto. }
    eapply (IH H t u b); eauto.
Qed.
Lemma concat_nodup_nth (A : list (list Z)) t : NoDup (List.concat A) -> NoDup (nth t A []).
Proof.
  revert t. induction A as [|l A IH]; intros t ND.
  - destruct t; constructor.
  - cbn in ND. destruct t; cbn.
    + clear IH. induction l as [|x l IHl]; [constructor|]. cbn in ND. inversion ND; subst.
      constructor; auto. intros Hx. apply H1. apply in_or_app. auto.
    + apply IH. clear -ND. induction l; cbn in *; auto. inversion ND; auto.
Qed.

Section Fixed.
Variable o1 : obj.
Hypothesis R1 : repr o1 i.
Hypothesis G1 : grid_ok S o1 i.
Hypothesis Z1 : zero_out S o1 i.
Variable A : list (list Z).
Hypothesis HA : is_schedule (nsurf i) A.

Let ths0 := map (seqs S) A.
Let PP t := thread_fp (nth t A []).
Let QQ t (o : obj) := forall b, In b (nth t A []) -> surf_done S i b o.
Let EE t := List.concat (map (surf_events S i) (nth t A [])).

Lemma sched_nodup : NoDup (List.concat A).
Proof. eapply Permutation_NoDup; [apply Permutation_sym; exact HA|apply nodup_zseq]. Qed.
Lemma sched_in b : In b (List.concat A) <-> 0 <= b < nsurf i.
Proof.
  rewrite <- (in_all S i Hok b). unfold all_surfs.
  split; apply Permutation_in; [exact HA|apply Permutation_sym; exact HA].
Qed.
Lemma sched_in_nth t b : In b (nth t A []) -> 0 <= b < nsurf i.
Proof.
  intros H. apply sched_in. apply in_concat. exists (nth t A []). split; auto.
  destruct (Nat.lt_ge_cases t (List.length A)); [apply nth_In; auto|].
  rewrite nth_overflow in H by auto. contradiction.
Qed.

Lemma PP_dis t u f k : t <> u -> fpW (PP t) f k -> ~ fpR (PP u) f k /\ ~ fpW (PP u) f k.
Proof.
  cbn. intros Ne (b & Hb & Ho).
  assert (N : ~ owns S i (nth u A []) f k).
  { intros (c & Hc & Hoc). assert (b = c) by (eapply own_disjoint; eauto). subst.
    eapply (concat_disjoint A sched_nodup t u); eauto. }
  split; auto. intros [Hs|]; auto. apply own_not_shared in Ho. congruence.
Qed.
Lemma QQ_stable t u o o' : t <> u -> upto (fpW (PP u)) o o' -> QQ t o -> QQ t o'.
Proof.
  intros Ne U H b Hb. eapply done_stable; [|exact U|apply H; exact Hb].
  intros f k Ho Hw. destruct (PP_dis t u f k Ne) as (_ & N); [|contradiction].
  cbn. exists b. auto.
Qed.
Lemma PP_init t p : nth_error ths0 t = Some p ->
  wp (PP t) p o1 (fun _ o ev => QQ t o /\ ev = EE t).
Proof.
  intros E. unfold ths0 in E. rewrite nth_error_map in E.
  destruct (nth_error A t) as [l|] eqn:El; [|discriminate]. cbn in E. injection E as <-.
  assert (En : nth t A [] = l) by (apply nth_error_nth with (d := []) in El; exact El).
  unfold PP, QQ, EE. rewrite En.
  eapply wp_mono; [|apply (seqs_spec S i Hok (thread_fp l))].
  - cbv beta. intros _ o ev (_ & H1 & H2). auto.
  - cbn. auto.
  - rewrite <- En. apply concat_nodup_nth. apply sched_nodup.
  - intros b Hb. apply (sched_in_nth t). now rewrite En.
  - cbn. auto.
  - cbn. auto.
  - intros b Hb. apply zero_pre; auto. apply (sched_in_nth t). now rewrite En.
Qed.

Lemma par_inv c : csteps (mkCfg ths0 o1 []) c ->
  cinv ths0 o1 PP QQ EE c.
Proof.
  intros H. apply (cinv_steps ths0 o1 PP QQ EE) with (c := mkCfg ths0 o1 []); auto.
  - apply PP_dis.
  - apply QQ_stable.
  - apply cinv_init. apply PP_init.
Qed.

Lemma par_safe c : csteps (mkCfg ths0 o1 []) c ->
  ~ failing c /\ ~ racy c /\ (finished c \/ exists c', cstep c c').
Proof.
  intros H. pose proof (par_inv c H) as CI.
  destruct (cinv_safe ths0 o1 PP QQ EE ltac:(cbn; auto) PP_dis c CI). splits; auto.
  eapply cinv_progress; [|exact CI]. cbn; auto.
Qed.

Lemma par_finished c : csteps (mkCfg ths0 o1 []) c -> finished c ->
  upto (owns S i (all_surfs S i)) o1 (cO c) /\
  (forall b, 0 <= b < nsurf i -> surf_done S i b (cO c)) /\
  forall t, (t < List.length A)%nat ->
    proj t (cLog c) = List.concat (map (surf_events S i) (nth t A [])).
Proof.
  intros H HF. pose proof (par_inv c H) as CI.
  destruct (cinv_finished _ _ _ _ _ _ CI HF) as (U & D).
  assert (El : List.length ths0 = List.length A) by (unfold ths0; apply map_length).
  rewrite El in *. splits.
  - eapply upto_weaken; [|exact U]. intros f k (t & Ht & b & Hb & Ho). exists b. split; auto.
    apply (in_all S i Hok). eapply sched_in_nth; eauto.
  - intros b Hb. apply sched_in in Hb. apply in_concat in Hb. destruct Hb as (l & Hl & Hb).
    destruct (In_nth A l [] Hl) as (t & Ht & <-). apply (D t); auto.
  - intros t Ht. apply D. exact Ht.
Qed.
End Fixed.

(** Two objects are the same: same value of every member. *)
Record obj_eq (o o' : obj) : Prop := mkEq {
  e_I : forall f, oI o f = oI o' f;
  e_B : forall f, oB o f = oB o' f;
  e_F : forall f, oF o f = oF o' f;
  e_N : forall f, oN o f = oN o' f;
  e_A : forall f, oA o f = oA o' f
}.

Lemma vec_is_eq {T} (a a' : array T) n g : vec_is a n g -> vec_is a' n g -> a = a'.
Proof.
  intros (A1 & A2 & A3 & A4) (B1 & B2 & B3 & B4). destruct a as [r c d], a' as [r' c' d']. cbn in *.
  assert (d = d'); [|congruence]. apply znth_ext; [lia|]. intros k.
  destruct (Z.ltb_spec k 0); [now rewrite !znth_neg by lia|].
  destruct (Z.ltb_spec k n); [now rewrite A4, B4 by lia|].
  rewrite (proj2 (znth_None d k)), (proj2 (znth_None d' k)) by lia. reflexivity.
Qed.
Lemma mat_is_eq {T} (a a' : array T) r c g : mat_is a r c g -> mat_is a' r c g -> a = a'.
Proof.
  intros (Hr & Hc & A1 & A2 & A3 & A4) (_ & _ & B1 & B2 & B3 & B4).
  destruct a as [r1 c1 d], a' as [r' c' d']. cbn in *.
  assert (d = d'); [|congruence]. apply znth_ext; [lia|]. intros k.
  destruct (Z.ltb_spec k 0); [now rewrite !znth_neg by lia|].
  destruct (Z.ltb_spec k (r * c)).
  - assert (0 < r) by nia.
    rewrite (Z.div_mod k r) by lia.
    replace (r * (k / r) + k mod r) with (k mod r + (k / r) * r) by lia.
    pose proof (Z.mod_pos_bound k r ltac:(lia)).
    assert (0 <= k / r < c) by (split; [apply Z.div_pos; lia|apply Z.div_lt_upper_bound; lia]).
    now rewrite A4, B4 by lia.
  - rewrite (proj2 (znth_None d k)), (proj2 (znth_None d' k)) by lia. reflexivity.
Qed.

(** Objects differing only in the cells of the surfaces, with the results in those cells. *)
Lemma done_eq o1 o o' :
  repr o1 i -> grid_ok S o1 i -> zero_out S o1 i ->
  upto (owns S i (all_surfs S i)) o1 o -> (forall b, 0 <= b < nsurf i -> surf_done S i b o) ->
  upto (owns S i (all_surfs S i)) o1 o' -> (forall b, 0 <= b < nsurf i -> surf_done S i b o') ->
  obj_eq o o'.
Proof.
  intros R G Zo U D U' D'.
  destruct (all_done S i Hok o1 o R G Zo U D) as (_ & _ & _ & Q1).
  destruct (all_done S i Hok o1 o' R G Zo U' D') as (_ & _ & _ & Q2).
  constructor; intros f.
  - now rewrite (u_I _ _ _ U), (u_I _ _ _ U').
  - now rewrite (u_B _ _ _ U), (u_B _ _ _ U').
  - now rewrite (u_F _ _ _ U), (u_F _ _ _ U').
  - now rewrite (u_N _ _ _ U), (u_N _ _ _ U').
  - destruct (in_dec afield_eq_dec f (outs (asym i))) as [Hf|Hf].
    + eapply mat_is_eq; [apply (q_out _ _ _ Q1 f Hf)|apply (q_out _ _ _ Q2 f Hf)].
    + destruct (afield_eq_dec f A_Boozer_I) as [->|NI].
      { eapply vec_is_eq; [apply (q_I _ _ _ Q1)|apply (q_I _ _ _ Q2)]. }
      destruct (afield_eq_dec f A_Boozer_G) as [->|NG].
      { eapply vec_is_eq; [apply (q_G _ _ _ Q1)|apply (q_G _ _ _ Q2)]. }
      assert (N : forall k, ~ owns S i (all_surfs S i) f k).
      { intros k (b & _ & Ho). inversion Ho; subst; contradiction. }
      now rewrite (upto_arr _ _ _ _ U N), (upto_arr _ _ _ _ U' N).
Qed.

(** ** Every parallel execution gives what one thread gives. *)
Theorem par_run o A :
  repr o i -> wf_obj o -> is_schedule (nsurf i) A ->
  exists o1, run (run_head S) o = ROk tt o1 (head_events S i) /\
  forall c, csteps (mkCfg (map (seqs S) A) o1 []) c ->
    ~ failing c /\ ~ racy c /\ (finished c \/ exists c', cstep c c') /\
    (finished c ->
       (exists os, run (bx_run S) o = ROk tt os (run_events S i) /\ obj_eq (cO c) os) /\
       forall t, (t < List.length A)%nat ->
         proj t (cLog c) = List.concat (map (surf_events S i) (nth t A []))).
Proof.
  intros R W HA.
  destruct (wp_run S _ _ _ _ (run_head_spec S i Hok o R W)) as ([] & o1 & ev & Eh & RF & R1 & G1 & Z1 & ->).
  exists o1. split; auto. intros c Hc.
  destruct (par_safe o1 R1 G1 Z1 A HA c Hc) as (S1 & S2 & S3). splits; auto.
  intros HF. destruct (par_finished o1 R1 G1 Z1 A HA c Hc HF) as (U & D & L). split; auto.
  (* the sequential run passes through the same o1 *)
  assert (Ws : wp fp_any (for_ 0 (nsurf i) tt (fun j _ => surface_solve S j)) o1 (fun _ o' ev =>
     (upto (owns S i (all_surfs S i)) o1 o' /\ (forall b, 0 <= b < nsurf i -> surf_done S i b o')) /\
     ev = List.concat (map (surf_events S i) (all_surfs S i)))).
  { unfold for_. rewrite Z.sub_0_r. apply wp_for_seqs. fold (all_surfs S i).
    eapply wp_mono; [|apply (seqs_spec S i Hok fp_any (fun _ _ _ => I) (all_surfs S i) o1)].
    - cbv beta. intros _ o2 ev2 (U2 & HD & ->). splits; auto.
      intros b Hb. apply HD. apply in_all; auto.
    - apply nodup_zseq.
    - intros b. apply in_all; auto.
    - intros; exact I.
    - intros; exact I.
    - intros b Hb. apply in_all in Hb; auto. apply zero_pre; auto. }
  destruct (wp_run S _ _ _ _ Ws) as ([] & os & evs & Es & (U2 & D2) & ->).
  exists os. split.
  - unfold bx_run. rewrite bind_run, Eh. cbn [bind sizen run].
    rewrite (vec_is_asize _ _ _ (r_surf _ _ _ R1)). rewrite Es. reflexivity.
  - eapply done_eq; eauto.
Qed.
End ParRun.

(** run() computes the functions of Func.v, executed sequentially. *)
From Coq Require Import ZArith QArith List String Bool Lia.
From Verif Require Import Scalar Prog Model Wp Func Step TrigProof InitProof SurfProof.
Import ListNotations.
Local Open Scope Z_scope.

Section RunProof.
Variable S : Scalar.
Notation obj := (obj S).
Notation F := (F S).
Notation event := (event S).
Variable i : Inp S.
Hypothesis Hok : ok_inp i.

(** ** Before and after one surface *)
Record surf_pre (b : Z) (o : obj) : Prop := mkPre {
  sp_repr : repr o i;
  sp_grid : grid_ok S o i;
  sp_cols : cols S i b o (fun _ _ => f0 S);
  sp_I : znth (adata (oA o A_Boozer_I)) b = Some (Some (f0 S));
  sp_G : znth (adata (oA o A_Boozer_G)) b = Some (Some (f0 S))
}.
Record surf_done (b : Z) (o : obj) : Prop := mkDone {
  sd_cols : cols S i b o (o_coef i (surf i b));
  sd_I : znth (adata (oA o A_Boozer_I)) b = Some (Some (bI i (surf i b)));
  sd_G : znth (adata (oA o A_Boozer_G)) b = Some (Some (bG i (surf i b)))
}.

Lemma in_outs_not a f : In f (outs a) -> f <> A_Boozer_I /\ f <> A_Boozer_G.
Proof.
  intros H. split; intros ->; destruct a; cbn in H; intuition discriminate.
Qed.

Lemma own_disjoint b c f k : own S i b f k -> own S i c f k -> b = c.
Proof.
  pose proof (mnboz_pos i Hok) as Hm.
  intros H1 H2. destruct H1 as [f k Hf Hk| |].
  - inversion H2 as [f' k' Hf' Hk' Ef Ek| |]; subst.
    + apply (flat_inj (mnboz i)) in Ek; [lia|exact Hk'|exact Hk].
    + exfalso. destruct (in_outs_not _ _ Hf); congruence.
    + exfalso. destruct (in_outs_not _ _ Hf); congruence.
  - inversion H2 as [f' k' Hf' Hk' Ef Ek| |]; subst; auto.
    exfalso. destruct (in_outs_not _ _ Hf'); congruence.
  - inversion H2 as [f' k' Hf' Hk' Ef Ek| |]; subst; auto.
    exfalso. destruct (in_outs_not _ _ Hf'); congruence.
Qed.

Lemma cols_stable (W : afield -> Z -> Prop) b o o' C :
  (forall f k, own S i b f k -> ~ W f k) -> upto W o o' -> cols S i b o C -> cols S i b o' C.
Proof.
  intros H U HC f Hf. destruct (HC f Hf) as (E1 & E2). split.
  - now rewrite (u_rows _ _ _ U), (u_cols _ _ _ U).
  - intros k Hk. rewrite (u_cell _ _ _ U); auto. apply H. constructor; auto.
Qed.
Lemma done_stable (W : afield -> Z -> Prop) b o o' :
  (forall f k, own S i b f k -> ~ W f k) -> upto W o o' -> surf_done b o -> surf_done b o'.
Proof.
  intros H U [D1 D2 D3]. constructor.
  - eapply cols_stable; eauto.
  - rewrite (u_cell _ _ _ U); auto. apply H. constructor.
  - rewrite (u_cell _ _ _ U); auto. apply H. constructor.
Qed.
Lemma pre_stable (W : afield -> Z -> Prop) b o o' :
  (forall f k, W f k -> shared f = false) ->
  (forall f k, own S i b f k -> ~ W f k) -> upto W o o' -> surf_pre b o -> surf_pre b o'.
Proof.
  intros HS H U [D0 D0' D1 D2 D3]. pose proof (upto_same _ _ _ HS U) as SS. constructor.
  - eapply same_repr; eauto.
  - eapply same_grid; eauto.
  - eapply cols_stable; eauto.
  - rewrite (u_cell _ _ _ U); auto. apply H. constructor.
  - rewrite (u_cell _ _ _ U); auto. apply H. constructor.
Qed.

(** ** A sequence of surfaces *)
Fixpoint seqs (l : list Z) : prog S unit :=
  match l with
  | [] => Ret tt
  | b :: l' => bind (surface_solve S b) (fun _ => seqs l')
  end.

Definition owns (l : list Z) (f : afield) (k : Z) : Prop := exists b, In b l /\ own S i b f k.

Lemma owns_not_shared l f k : owns l f k -> shared f = false.
Proof. intros (b & _ & H). eapply own_not_shared; eauto. Qed.

Lemma seqs_spec P (HP : forall f k, shared f = true -> fpR P f k) : forall l o,
  NoDup l -> (forall b, In b l -> 0 <= b < nsurf i) ->
  (forall f k, owns l f k -> fpR P f k) -> (forall f k, owns l f k -> fpW P f k) ->
  (forall b, In b l -> surf_pre b o) ->
  wp P (seqs l) o (fun _ o' ev =>
    upto (owns l) o o' /\ (forall b, In b l -> surf_done b o') /\
    ev = List.concat (map (surf_events S i) l)).
Proof.
  induction l as [|b l IH]; intros o ND HB HR HW HPre.
  - cbn. splits; auto; [apply upto_refl|intros b []].
  - cbn [seqs]. inversion ND as [|? ? Nb ND']; subst.
    assert (Hb : 0 <= b < nsurf i) by (apply HB; left; reflexivity).
    apply wp_bind. destruct (HPre b (or_introl eq_refl)) as [R G C CI CG].
    eapply wp_mono; [|eapply (surface_solve_spec S i Hok P HP b Hb); eauto].
    2:{ apply (ok_surf _ _ Hok). exact Hb. }
    2:{ intros f k Ho. apply HR. exists b. split; [left; reflexivity|exact Ho]. }
    2:{ intros f k Ho. apply HW. exists b. split; [left; reflexivity|exact Ho]. }
    cbv beta. intros _ o1 ev1 (U & D1 & D2 & D3 & ->).
    assert (Hdis : forall c, In c l -> forall f k, own S i c f k -> ~ own S i b f k).
    { intros c Hc f k O1 O2. assert (c = b) by (eapply own_disjoint; eauto). subst. contradiction. }
    eapply wp_mono; [|apply (IH o1)].
    + cbv beta. intros _ o2 ev2 (U2 & HD & ->). splits.
      * eapply upto_trans.
        -- eapply upto_weaken; [|exact U]. intros f k Ho. exists b. split; [left; reflexivity|exact Ho].
        -- eapply upto_weaken; [|exact U2]. intros f k (c & Hc & Ho). exists c. split; [right; exact Hc|exact Ho].
      * intros c [<-|Hc]; [|auto].
        eapply done_stable; [|exact U2|constructor; auto].
        intros f k Ho (c & Hc & Hoc). eapply Hdis; eauto.
      * reflexivity.
    + exact ND'.
    + intros c Hc. apply HB. right; exact Hc.
    + intros f k (c & Hc & Ho). apply HR. exists c. split; [right; exact Hc|exact Ho].
    + intros f k (c & Hc & Ho). apply HW. exists c. split; [right; exact Hc|exact Ho].
    + intros c Hc. eapply pre_stable; [|apply (Hdis c Hc)|exact U|apply HPre; right; exact Hc].
      intros f k Ho. eapply own_not_shared; eauto.
Qed.

(** The C++ loop is the sequence 0, 1, ..., n-1. *)
Fixpoint zseq (lo : Z) (n : nat) : list Z :=
  match n with O => [] | Datatypes.S n' => lo :: zseq (lo + 1) n' end.
Lemma in_zseq lo n b : In b (zseq lo n) <-> lo <= b < lo + Z.of_nat n.
Proof.
  revert lo. induction n as [|n IH]; intros lo; cbn [zseq In].
  - lia.
  - rewrite IH. lia.
Qed.
Lemma nodup_zseq lo n : NoDup (zseq lo n).
Proof.
  revert lo. induction n as [|n IH]; intros lo; constructor; auto.
  rewrite in_zseq. lia.
Qed.
Lemma wp_bind_cong {A B} P (p : prog S A) (k k' : A -> prog S B) :
  (forall a o Q, wp P (k a) o Q -> wp P (k' a) o Q) ->
  forall o Q, wp P (bind p k) o Q -> wp P (bind p k') o Q.
Proof.
  intros H. induction p; intros o Q W; cbn [wp bind] in *; try contradiction; auto;
    repeat match goal with
    | H : _ /\ _ |- _ => destruct H
    | H : exists _, _ |- _ => destruct H
    end; repeat split; eauto.
Qed.
Lemma wp_for_seqs P n : forall lo o Q,
  wp P (seqs (zseq lo n)) o Q -> wp P (for_from n lo tt (fun j _ => surface_solve S j)) o Q.
Proof.
  induction n as [|n IH]; intros lo o Q W; cbn [zseq seqs for_from] in *; [exact W|].
  revert W. apply wp_bind_cong. intros [] o' Q'. apply IH.
Qed.

(** ** All the surfaces done: the results *)
Definition all_surfs : list Z := zseq 0 (Z.to_nat (nsurf i)).
Lemma in_all b : In b all_surfs <-> 0 <= b < nsurf i.
Proof. pose proof (ok_nsurf _ _ Hok). unfold all_surfs. rewrite in_zseq. lia. Qed.

Lemma zero_pre o b : repr o i -> grid_ok S o i -> zero_out S o i -> 0 <= b < nsurf i -> surf_pre b o.
Proof.
  intros R G [Z1 Z2 Z3] Hb. constructor; auto.
  - intros f Hf. destruct (Z3 f Hf) as (_ & _ & E1 & E2 & _ & E). split; auto.
  - destruct Z1 as (_ & _ & _ & E). auto.
  - destruct Z2 as (_ & _ & _ & E). auto.
Qed.

Lemma all_done o o' :
  repr o i -> grid_ok S o i -> zero_out S o i ->
  upto (owns all_surfs) o o' -> (forall b, 0 <= b < nsurf i -> surf_done b o') ->
  run_frame S (asym i) o o' /\ repr o' i /\ grid_ok S o' i /\ results o' i.
Proof.
  intros R G [Z1 Z2 Z3] U HD. pose proof (ok_nsurf _ _ Hok) as Hns.
  pose proof (upto_same _ _ _ (owns_not_shared _) U) as SS.
  pose proof (same_repr _ _ _ SS R) as R'. pose proof (same_grid _ _ _ SS G) as G'.
  splits; auto.
  - constructor; intros; try apply U. eapply upto_arr; [exact U|].
    intros k (b & _ & Ho). inversion Ho as [f' k' Hf Hk Ef Ek| |]; subst; try discriminate.
    revert H Hf. destruct (asym i); cbn; intuition (subst; discriminate).
  - constructor; try apply G'.
    + destruct Z1 as (E1 & E2 & E3 & _). unfold vec_is.
      rewrite (u_rows _ _ _ U), (u_cols _ _ _ U), (u_len _ _ _ U). splits; auto.
      intros b Hb. apply (HD b Hb).
    + destruct Z2 as (E1 & E2 & E3 & _). unfold vec_is.
      rewrite (u_rows _ _ _ U), (u_cols _ _ _ U), (u_len _ _ _ U). splits; auto.
      intros b Hb. apply (HD b Hb).
    + intros f Hf. destruct (Z3 f Hf) as (E1 & E2 & E3 & E4 & E5 & _). unfold mat_is.
      rewrite (u_rows _ _ _ U), (u_cols _ _ _ U), (u_len _ _ _ U). splits; auto.
      intros k b Hk Hb. destruct (HD b Hb) as [HC _ _]. destruct (HC f Hf) as (_ & E). apply E. exact Hk.
Qed.

(** ** The whole of run() *)
Definition head_events : list event :=
  (if 0 <? verb i then [mkEv "compute_surfs (0-based indices)" (map (surf i) all_surfs) []] else []) ++
  init_events S i ++
  (if 0 <? verb i then [mkEv "accuracy table heading" [] []] else []).

Lemma zseq_succ n : zseq 0 (Datatypes.S n) = zseq 0 n ++ [Z.of_nat n].
Proof.
  assert (H : forall lo, zseq lo (Datatypes.S n) = zseq lo n ++ [lo + Z.of_nat n]).
  { induction n as [|n IH]; intros lo.
    - cbn. f_equal. lia.
    - change (zseq lo (Datatypes.S (Datatypes.S n))) with (lo :: zseq (lo + 1) (Datatypes.S n)).
      rewrite IH. cbn [zseq app]. f_equal. f_equal. f_equal. lia. }
  apply H.
Qed.

Lemma wp_geti0 P {B} f v (k : Z -> prog S B) o Q :
  oI o f = Some v -> wp P (k v) o Q -> wp P (bind (geti f) k) o Q.
Proof. apply wp_geti. Qed.

Theorem run_head_spec (o : obj) :
  repr o i -> wf_obj o ->
  wp fp_any (run_head S) o (fun _ o' ev =>
    run_frame S (asym i) o o' /\ repr o' i /\ grid_ok S o' i /\ zero_out S o' i /\ ev = head_events).
Proof.
  intros R W. unfold run_head, head_events. pose proof (ok_nsurf _ _ Hok) as Hns.
  eapply wp_geti; [apply R|].
  apply wp_bind.
  eapply wp_mono with (Q := fun _ o' ev => o' = o /\
    ev = if 0 <? verb i then [mkEv "compute_surfs (0-based indices)" (map (surf i) all_surfs) []] else []).
  2:{ destruct (0 <? verb i); [|cbn; auto].
      eapply wp_sizen; [exact (r_surf _ _ _ R)|].
      eapply wp_sub with (R := fun l => l = map (surf i) all_surfs).
      2:{ intros l ->. cbn. auto. }
      eapply wp_mono; [|eapply wp_for_pure with (Inv := fun j l => l = map (surf i) (zseq 0 (Z.to_nat j)))].
      - cbv beta. auto.
      - lia.
      - reflexivity.
      - intros j l Hj ->. eapply wp_getn; [exact (r_surf _ _ _ R)|exact Hj|]. cbn [wp]. splits; auto.
        replace (Z.to_nat (j + 1)) with (Datatypes.S (Z.to_nat j)) by lia.
        rewrite zseq_succ, map_app. cbn. now rewrite Z2Nat.id by lia. }
  cbv beta. intros _ o1 ev1 (-> & ->).
  apply wp_bind. eapply wp_mono; [|apply (init_spec S i Hok o R W)].
  cbv beta. intros _ o2 ev2 (RF & G & Zo & ->).
  destruct (0 <? verb i); cbn; splits; auto; eapply run_frame_repr; eauto.
Qed.

Definition run_events : list event :=
  head_events ++ List.concat (map (surf_events S i) all_surfs).

Theorem bx_run_spec (o : obj) :
  repr o i -> wf_obj o ->
  wp fp_any (bx_run S) o (fun _ o' ev =>
    run_frame S (asym i) o o' /\ repr o' i /\ grid_ok S o' i /\ results o' i /\ ev = run_events).
Proof.
  intros R W. unfold bx_run. apply wp_bind.
  eapply wp_mono; [|apply (run_head_spec o R W)].
  cbv beta. intros _ o1 ev1 (RF & R1 & G1 & Z1 & ->).
  eapply wp_sizen; [exact (r_surf _ _ _ R1)|]. unfold for_. rewrite Z.sub_0_r.
  apply wp_for_seqs. fold all_surfs.
  eapply wp_mono; [|apply (seqs_spec fp_any (fun _ _ _ => I) all_surfs o1)].
  - cbv beta. intros _ o2 ev2 (U & HD & ->).
    destruct (all_done o1 o2 R1 G1 Z1 U) as (RF2 & R2 & G2 & Res).
    { intros b Hb. apply HD. apply in_all. exact Hb. }
    splits; auto. eapply run_frame_trans; eauto.
  - apply nodup_zseq.
  - intros b. apply in_all.
  - intros; exact I.
  - intros; exact I.
  - intros b Hb. apply in_all in Hb. apply zero_pre; auto.
Qed.

(** run() in one line: it returns normally, with the results, whatever the outputs held. *)
Corollary bx_run_ok (o : obj) :
  repr o i -> wf_obj o ->
  exists o', run (bx_run S) o = ROk tt o' run_events /\
    run_frame S (asym i) o o' /\ repr o' i /\ grid_ok S o' i /\ results o' i.
Proof.
  intros R W. destruct (wp_run S _ _ _ _ (bx_run_spec o R W)) as ([] & o' & ev & E & H1 & H2 & H3 & H4 & ->).
  exists o'. auto.
Qed.

End RunProof.

(** Theorems about files, from the specifications of read_wout, read_boozmn and write_boozmn. *)
From Coq Require Import ZArith QArith List String Bool Lia.
From Verif Require Import Scalar Prog Model Wp Func Step TrigProof InitProof RunProof Par FuncExt Spec RunThms
  Vmec VmecSpec VmecRun VmecThms Nc NcModel NcSpec NcTri NcRead NcBoozmn NcWout NcWrite NcWriteB NcVoc.
Import ListNotations.
Local Open Scope Z_scope.

Section Thms.
Variable S : Scalar.
Notation obj := (obj S).
Notation world := (world S).
Notation file := (ncfile S).
Notation F := (F S).

Lemma set_verb_id (i : Inp S) : set_verb i (verb i) = i.
Proof. now destruct i. Qed.
Lemma after_run_intro (o0 o : obj) i ev : valid o0 i -> run_ok o0 o ev -> after_run o i.
Proof.
  intros V E. exists o0, o, ev, (verb i). rewrite set_verb_id. destruct (run_total o0 i V) as (o' & E' & _ & R & _ & _ & W).
  destruct (run_ok_det _ _ _ _ _ E E') as (-> & _). splits; auto; [|apply R]. constructor; auto.
Qed.
Lemma ok_set_verb (i : Inp S) v : ok_inp (set_verb i v) -> ok_inp i.
Proof. intros H. destruct H. constructor; auto. Qed.
Lemma after_run_holds (o : obj) i : after_run o i -> ok_inp i /\ repr o i /\ results o i /\ wf_obj o.
Proof.
  intros (o0 & o1 & ev & v & V & E & T & Hv). destruct (run_total o0 _ V) as (o' & E' & _ & R & _ & Q & W).
  destruct (run_ok_det _ _ _ _ _ E E') as (<- & _). destruct V as (V & _). destruct T as [T1 T2 T3 T4 T5 T6]. splits; auto.
  - now apply (ok_set_verb i v).
  - destruct R. constructor; auto; intros; rewrite ?T1, ?T2, ?T4, ?T5 by (cbn; intuition discriminate); auto.
  - destruct Q as [Q1 Q2 Q3 Q4 Q5 Q6 Q7 Q8 Q9 Q10].
    constructor; rewrite ?T2, ?T4, ?T5 by (cbn; intuition discriminate); auto.
    intros f Hf. rewrite T5; [exact (Q10 f Hf)|]. unfold outs in Hf. intros X. destruct (asym i); cbn in Hf, X; intuition congruence.
Qed.

Lemma mnboz_fits (i : Inp S) : ok_inp i -> 1 <= mnboz i <= 2147483644.
Proof.
  intros O. pose proof (ok_grid _ _ O) as G.
  pose proof (ok_mboz _ _ O) as M. pose proof (ok_nboz _ _ O) as N.
  unfold ntheta, nzeta, mnboz, INT_MAX in *.
  assert (0 <= (2 * nboz i + 1) * (mboz i - 1)) by (apply Z.mul_nonneg_nonneg; lia).
  destruct (Z.eqb_spec (nboz i) 0) as [E|E]; [rewrite E in *; lia|].
  set (p := nboz i * mboz i) in *. assert (0 <= p) by (apply Z.mul_nonneg_nonneg; lia).
  replace ((2 * nboz i + 1) * (mboz i - 1)) with (2 * p + mboz i - 2 * nboz i - 1) in * by (unfold p; ring).
  replace (2 * (2 * mboz i + 1) * (2 * (2 * nboz i + 1))) with (16 * p + 8 * mboz i + 8 * nboz i + 4) in * by (unfold p; ring).
  lia.
Qed.

(** The contents of the file *)
Definition bd (i : Inp S) (fl : bool) (pi pp ch pr : Z -> F) : bdat S :=
  let z := fofZ S 0 in
  mkBdat S (if asym i then 1 else 0) (nfp i) (mboz i) (nboz i) (mnboz i) (nsin i + 1) (nsurf i) (nsin i + 1)
    (xm_b i) (xn_b i) (fun j => surf i j + 2)
    (fun j => if j =? 0 then z else iota i (j - 1))
    (fun j => if j =? 0 then z else bsubvmnc i 0 (j - 1))
    (fun j => if j =? 0 then z else bsubumnc i 0 (j - 1))
    (fun j => if fl then pi j else z) (fun j => if fl then (if j =? 0 then z else pp j) else z)
    (fun j => if fl then ch j else z) (fun j => if fl then pr j else z)
    (fun m k b => bsign S m (o_coef i (surf i b) m k)).
Lemma bd_asym i fl pi pp ch pr : b_asym S (bd i fl pi pp ch pr) = asym i.
Proof. unfold b_asym, bd. cbn. now destruct (asym i). Qed.

Definition flux_are (o : obj) (n : Z) (fl : bool) (pi pp ch pr : Z -> F) : Prop :=
  fl = true -> vec_is (oA o A_phi) n pi /\ vec_is (oA o A_phip) n pp /\ vec_is (oA o A_chi) n ch /\ vec_is (oA o A_pres) n pr.

Lemma writable_stored version (o : obj) i : writable version o i ->
  exists pi pp ch pr, flux_are o (nsin i + 1) (has_fluxes o) pi pp ch pr /\
    stored S o (bd i (has_fluxes o) pi pp ch pr) (fun m k b => o_coef i (surf i b) m k) (has_fluxes o) pp /\
    wfits S version (bd i (has_fluxes o) pi pp ch pr).
Proof.
  intros [Ar Fx Ns Ni Hv]. destruct (after_run_holds o i Ar) as (O & R & Q & W).
  assert (P : exists pi pp ch pr, flux_are o (nsin i + 1) (has_fluxes o) pi pp ch pr).
  { destruct Fx as [E|H].
    - unfold flux_are, has_fluxes. rewrite E. cbn. do 4 exists (fun _ => fofZ S 0). discriminate.
    - destruct (H A_phi) as (pi & H1); [cbn; auto|]. destruct (H A_phip) as (pp & H2); [cbn; auto|].
      destruct (H A_chi) as (ch & H3); [cbn; auto|]. destruct (H A_pres) as (pr & H4); [cbn; auto|].
      exists pi, pp, ch, pr. intros _. auto. }
  destruct P as (pi & pp & ch & pr & P). exists pi, pp, ch, pr. split; [exact P|].
  pose proof (ok_nsin _ _ O) as Hn. pose proof (mnboz_fits i O) as Hm.
  split.
  - constructor.
    + rewrite bd_asym. apply R.
    + rewrite bd_asym. reflexivity.
    + apply R.
    + apply R.
    + apply R.
    + apply Q.
    + cbn. rewrite (r_nsin _ _ _ R). f_equal. lia.
    + reflexivity.
    + apply Q.
    + apply Q.
    + apply Q.
    + exists (surf i). split; [apply R|reflexivity].
    + repeat split.
    + cbn. rewrite Z.add_simpl_r. eapply vec_ext; [|apply R]. cbv beta. intros j Hj. destruct (Z.eqb_spec (j + 1) 0); [lia|]. f_equal. lia.
    + cbn. rewrite Z.add_simpl_r. eapply vec_ext; [|apply Q]. cbv beta. intros j Hj. destruct (Z.eqb_spec (j + 1) 0); [lia|]. f_equal. lia.
    + cbn. rewrite Z.add_simpl_r. eapply vec_ext; [|apply Q]. cbv beta. intros j Hj. destruct (Z.eqb_spec (j + 1) 0); [lia|]. f_equal. lia.
    + intros x m Hin. apply (q_out _ _ _ Q). unfold outs. cbn in Hin.
      assert (In m sym_outs) by (cbn; repeat destruct Hin as [X|Hin]; try injection X as <- <-; tauto).
      destruct (asym i); [apply in_or_app|]; auto.
    + rewrite bd_asym. intros As x m Hin. apply (q_out _ _ _ Q). rewrite As. unfold outs. cbn in Hin. apply in_or_app. right.
      cbn; repeat destruct Hin as [X|Hin]; try injection X as <- <-; tauto.
    + reflexivity.
    + intros E. destruct (P E) as (P1 & P2 & P3 & P4). rewrite E. cbn. splits; auto.
    + intros E. rewrite E. cbn. split; [|auto]. unfold has_fluxes in E. apply negb_false_iff, Z.eqb_eq in E. exact E.
  - constructor; cbn; try lia; auto. intros j Hj. pose proof (ok_surf _ _ O j Hj). unfold INT_MIN, INT_MAX. lia.
Qed.

Lemma writable_verbose version (o : obj) i : writable version o i -> oI o I_verbose = Some (verb i).
Proof. intros [Ar _ _ _ _]. destruct (after_run_holds o i Ar) as (_ & R & _). apply R. Qed.
Lemma writable_wf version (o : obj) i : writable version o i -> wf_obj o.
Proof. intros [Ar _ _ _ _]. now destruct (after_run_holds o i Ar) as (_ & _ & _ & W). Qed.

(** What the writer does, for all environments *)
Lemma write_all version x (w : world) i : writable version (wO w) i -> open_ok w ->
  exists pi pp ch pr, flux_are (wO w) (nsin i + 1) (has_fluxes (wO w)) pi pp ch pr /\
    let d := bd i (has_fluxes (wO w)) pi pp ch pr in
    wfits S version d /\
    tri (write_boozmn S version x) w
      (fun _ w' => wgood S version x w (wO w) d (has_fluxes (wO w)) (wQ w) w')
      (wbad S x w (wO w) (has_fluxes (wO w)) (wQ w)) (wbad S x w (wO w) (has_fluxes (wO w)) (wQ w)).
Proof.
  intros Wr Op. destruct (writable_stored version _ i Wr) as (pi & pp & ch & pr & P & St & Ft).
  exists pi, pp, ch, pr. split; [exact P|]. cbv zeta. split; [exact Ft|].
  eapply write_boozmn_spec; eauto.
  - split; [eapply writable_wf; eauto|exact Op].
  - eapply writable_verbose; eauto.
Qed.
Lemma write_lucky version x (w : world) i : writable version (wO w) i -> open_ok w -> lucky S w ->
  exists pi pp ch pr w', flux_are (wO w) (nsin i + 1) (has_fluxes (wO w)) pi pp ch pr /\
    let d := bd i (has_fluxes (wO w)) pi pp ch pr in
    wfits S version d /\ write_boozmn S version x w = IOk tt w' /\
    wgood S version x w (wO w) d (has_fluxes (wO w)) [] w'.
Proof.
  intros Wr Op L. destruct (write_all version x w i Wr Op) as (pi & pp & ch & pr & P & Ft & T).
  unfold lucky in L. rewrite L in T. unfold tri in T.
  destruct (write_boozmn S version x w) as [[] w'|m w'|y|w'] eqn:E.
  - exists pi, pp, ch, pr, w'. cbv zeta. auto.
  - destruct T as (X & _). contradiction.
  - contradiction.
  - destruct T as (X & _). contradiction.
Qed.

(** C41 *)
Theorem write_safe version x (w : world) i : writable version (wO w) i -> open_ok w ->
  (forall why, write_boozmn S version x w <> IUB why) /\
  (lucky S w -> exists w', write_boozmn S version x w = IOk tt w').
Proof.
  intros Wr Op. split.
  - intros why E. destruct (write_all version x w i Wr Op) as (pi & pp & ch & pr & _ & _ & T). unfold tri in T. now rewrite E in T.
  - intros L. destruct (write_lucky version x w i Wr Op L) as (pi & pp & ch & pr & w' & _ & _ & E & _). eauto.
Qed.

(** C38 *)
Theorem write_object version x (w : world) i w' : writable version (wO w) i -> open_ok w ->
  (write_boozmn S version x w = IOk tt w' -> same_but_phip0 S (has_fluxes (wO w)) (wO w) (wO w')) /\
  ((exists m, write_boozmn S version x w = IThrow m w') \/ write_boozmn S version x w = IDie w' ->
     wO w' = wO w \/ same_but_phip0 S (has_fluxes (wO w)) (wO w) (wO w')).
Proof.
  intros Wr Op. destruct (write_all version x w i Wr Op) as (pi & pp & ch & pr & _ & _ & T). unfold tri in T.
  split; [intros E|intros [(m & E)|E]]; rewrite E in T.
  - destruct T as (_ & _ & _ & _ & _ & ->). apply after_same.
  - destruct T as (_ & _ & _ & [->| ->]); auto. right. apply after_same.
  - destruct T as (_ & _ & _ & [->| ->]); auto. right. apply after_same.
Qed.

(** Cells *)
Lemma icell_of (f : file) x n g p : holds_ints S f x n g -> present S f x -> 0 <= p < n -> icell f x p = Some (Some (g p)).
Proof.
  intros H P Hp. unfold present in P. unfold icell. destruct (find_var f x) as [v|] eqn:E; [|contradiction].
  destruct (H v E) as (l & -> & _ & _ & _ & X). now apply X.
Qed.
Lemma dcell_of (f : file) x n g p : holds_vec S f x n g -> present S f x -> 0 <= p < n -> dcell f x p = Some (Some (g p)).
Proof.
  intros H P Hp. unfold present in P. unfold dcell. destruct (find_var f x) as [v|] eqn:E; [|contradiction].
  destruct (H v E) as (l & -> & _ & _ & _ & X). now apply X.
Qed.
Lemma dcell_of2 (f : file) x r c g k b : holds_mat S f x r c g -> present S f x -> 0 <= k < r -> 0 <= b < c ->
  dcell f x (b * r + k) = Some (Some (g k b)).
Proof.
  intros H P Hk Hb. unfold present in P. unfold dcell. destruct (find_var f x) as [v|] eqn:E; [|contradiction].
  destruct (H v E) as (l & -> & _ & _ & _ & _ & _ & X). rewrite Z.add_comm. now apply X.
Qed.

Lemma written_holds version (o : obj) i pi pp ch pr f : writable version o i ->
  flux_are o (nsin i + 1) (has_fluxes o) pi pp ch pr ->
  written S version o (bd i (has_fluxes o) pi pp ch pr) (has_fluxes o) f -> holds_results o i f.
Proof.
  intros Wr Fl Wt. destruct (after_run_holds o i (wb_run _ _ _ Wr)) as (O & R & Q & W).
  pose proof (ok_nsin _ _ O) as Hn. pose proof (mnboz_fits i O) as Hm.
  pose proof (wt_data _ _ _ _ _ _ Wt) as B. destruct (wt_all _ _ _ _ _ _ Wt) as ((C1 & _) & C3). rewrite bd_asym in C1.
  assert (P : forall y, In y (bneed_vars (asym i)) -> present S f y) by exact C1. clear C1.
  constructor.
  - rewrite (icell_of f _ 1 _ 0 (bf_lasym _ _ _ B)); [reflexivity| |lia]. apply P. cbn. auto 30.
  - rewrite (icell_of f _ 1 _ 0 (bf_ns _ _ _ B)); [reflexivity| |lia]. apply P. cbn. auto 30.
  - intros y g Hin. cbn in Hin. repeat destruct Hin as [X|Hin]; try contradiction; injection X as <- <-.
    + rewrite (icell_of f _ 1 _ 0 (bf_nfp _ _ _ B)), (r_nfp _ _ _ R); [split; [reflexivity|discriminate]| |lia]. apply P. cbn. auto 30.
    + rewrite (icell_of f _ 1 _ 0 (bf_mboz _ _ _ B)), (r_mboz _ _ _ R); [split; [reflexivity|discriminate]| |lia]. apply P. cbn. auto 30.
    + rewrite (icell_of f _ 1 _ 0 (bf_nboz _ _ _ B)), (r_nboz _ _ _ R); [split; [reflexivity|discriminate]| |lia]. apply P. cbn. auto 30.
    + rewrite (icell_of f _ 1 _ 0 (bf_mnboz _ _ _ B)), (q_mnboz _ _ _ Q); [split; [reflexivity|discriminate]| |lia]. apply P. cbn. auto 30.
  - intros y g Hin. cbn in Hin. repeat destruct Hin as [X|Hin]; try contradiction; injection X as <- <-; intros k Hk.
    + rewrite (vec_is_asize _ _ _ (q_xm_b _ _ _ Q)) in Hk. rewrite (elemN_vec _ _ _ _ k (q_xm_b _ _ _ Q)) by auto.
      split; [|discriminate]. apply (icell_of f _ (mnboz i) (xm_b i) k (bf_xm _ _ _ B)); auto. apply P. cbn. auto 30.
    + rewrite (vec_is_asize _ _ _ (q_xn_b _ _ _ Q)) in Hk. rewrite (elemN_vec _ _ _ _ k (q_xn_b _ _ _ Q)) by auto.
      split; [|discriminate]. apply (icell_of f _ (mnboz i) (xn_b i) k (bf_xn _ _ _ B)); auto. apply P. cbn. auto 30.
  - intros j Hj. exists (surf i j). rewrite (elemN_vec _ _ _ _ j (r_surf _ _ _ R)) by auto. split; [reflexivity|].
    apply (icell_of f _ (nsurf i) (fun j => surf i j + 2) j (bf_jlist _ _ _ B)); auto. apply P. cbn. auto 30.
  - intros y g Hin. cbn in Hin. repeat destruct Hin as [X|Hin]; try contradiction; injection X as <- <-; (split; [|intros j Hj; split]).
    + rewrite (dcell_of f _ (nsin i + 1) _ 0 (bf_iota _ _ _ B)); [reflexivity| |lia]. apply P. cbn. auto 30.
    + rewrite (elem_vec _ _ _ _ j (r_iota _ _ _ R)) by auto.
      rewrite (dcell_of f _ (nsin i + 1) _ (j + 1) (bf_iota _ _ _ B)); [| |lia].
      * cbn. destruct (Z.eqb_spec (j + 1) 0); [lia|]. now rewrite Z.add_simpl_r.
      * apply P. cbn. auto 30.
    + rewrite (elem_vec _ _ _ _ j (r_iota _ _ _ R)) by auto. discriminate.
    + rewrite (dcell_of f _ (nsin i + 1) _ 0 (bf_G _ _ _ B)); [reflexivity| |lia]. apply P. cbn. auto 30.
    + rewrite (elem_vec _ _ _ _ j (q_Gall _ _ _ Q)) by auto.
      rewrite (dcell_of f _ (nsin i + 1) _ (j + 1) (bf_G _ _ _ B)); [| |lia].
      * cbn. destruct (Z.eqb_spec (j + 1) 0); [lia|]. now rewrite Z.add_simpl_r.
      * apply P. cbn. auto 30.
    + rewrite (elem_vec _ _ _ _ j (q_Gall _ _ _ Q)) by auto. discriminate.
    + rewrite (dcell_of f _ (nsin i + 1) _ 0 (bf_I _ _ _ B)); [reflexivity| |lia]. apply P. cbn. auto 30.
    + rewrite (elem_vec _ _ _ _ j (q_Iall _ _ _ Q)) by auto.
      rewrite (dcell_of f _ (nsin i + 1) _ (j + 1) (bf_I _ _ _ B)); [| |lia].
      * cbn. destruct (Z.eqb_spec (j + 1) 0); [lia|]. now rewrite Z.add_simpl_r.
      * apply P. cbn. auto 30.
    + rewrite (elem_vec _ _ _ _ j (q_Iall _ _ _ Q)) by auto. discriminate.
  - intros E. destruct (Fl E) as (F1 & F2 & F3 & F4). rewrite E in B.
    intros y g Hin. cbn in Hin. repeat destruct Hin as [X|Hin]; try contradiction; injection X as <- <-; intros j Hj.
    + rewrite (elem_vec _ _ _ _ j F1) by auto. split; [|discriminate]. cbn [afield_eq_dec]. cbn. rewrite andb_false_r.
      rewrite (dcell_of f _ (nsin i + 1) _ j (bf_phi _ _ _ B)); auto. apply P. cbn. auto 30.
    + rewrite (elem_vec _ _ _ _ j F2) by auto. split; [|discriminate]. cbn. rewrite andb_true_r.
      rewrite (dcell_of f _ (nsin i + 1) _ j (bf_phip _ _ _ B)); auto.
      * cbn. destruct (j =? 0); reflexivity.
      * apply P. cbn. auto 30.
    + rewrite (elem_vec _ _ _ _ j F3) by auto. split; [|discriminate]. cbn. rewrite andb_false_r.
      rewrite (dcell_of f _ (nsin i + 1) _ j (bf_chi _ _ _ B)); auto.
    + rewrite (elem_vec _ _ _ _ j F4) by auto. split; [|discriminate]. cbn. rewrite andb_false_r.
      rewrite (dcell_of f _ (nsin i + 1) _ j (bf_pres _ _ _ B)); auto. apply P. cbn. auto 30.
  - intros E y Hin j Hj. rewrite E in B. cbn in Hin. repeat destruct Hin as [<-|Hin]; try contradiction.
    + rewrite (dcell_of f _ (nsin i + 1) _ j (bf_phi _ _ _ B)); auto. apply P. cbn. auto 30.
    + rewrite (dcell_of f _ (nsin i + 1) _ j (bf_phip _ _ _ B)); auto. apply P. cbn. auto 30.
    + rewrite (dcell_of f _ (nsin i + 1) _ j (bf_chi _ _ _ B)); auto.
    + rewrite (dcell_of f _ (nsin i + 1) _ j (bf_pres _ _ _ B)); auto. apply P. cbn. auto 30.
  - intros y g Hin k b Hk Hb. exists (o_coef i (surf i b) g k).
    assert (Ho : In g (outs (asym i))).
    { unfold outs. destruct Hin as [Hin|(As & Hin)]; [destruct (asym i)|rewrite As]; cbn in Hin |- *;
        repeat destruct Hin as [X|Hin]; try injection X as <- <-; tauto. }
    split.
    { exact (elem2_mat _ _ _ _ _ k b (q_out _ _ _ Q g Ho) Hk Hb). }
    assert (Hy : present S f y).
    { apply P. destruct Hin as [Hin|(As & Hin)]; [|rewrite As]; cbn in Hin; repeat destruct Hin as [X|Hin]; try contradiction;
        injection X as <- <-; cbn; auto 30. }
    assert (Hm2 : holds_mat S f y (mnboz i) (nsurf i) (b_mat S (bd i (has_fluxes o) pi pp ch pr) g)).
    { destruct Hin as [Hin|(As & Hin)]; [exact (bf_sym _ _ _ B y g Hin)|]. apply (bf_asym _ _ _ B); [now rewrite bd_asym|exact Hin]. }
    rewrite (dcell_of2 f y _ _ _ k b Hm2 Hy Hk Hb). cbn. do 2 f_equal.
    destruct Hin as [Hin|(As & Hin)]; cbn in Hin; repeat destruct Hin as [X|Hin]; try contradiction; injection X as <- <-; reflexivity.
  - destruct (wt_aspect _ _ _ _ _ _ Wt) as (v & Hv & Ev). unfold dcell. rewrite Hv, Ev. reflexivity.
Qed.

(** C39 *)
Theorem write_files version x (w : world) i w' : writable version (wO w) i -> open_ok w ->
  (write_boozmn S version x w = IOk tt w' ->
     (forall y, y <> x -> wFS w' y = wFS w y) /\ exists f, wFS w' x = Some (Whole f) /\ holds_results (wO w) i f) /\
  ((exists m, write_boozmn S version x w = IThrow m w') \/ write_boozmn S version x w = IDie w' ->
     (forall y, y <> x -> wFS w' y = wFS w y) /\ (wFS w' x = wFS w x \/ wFS w' x = Some Torn)).
Proof.
  intros Wr Op. destruct (write_all version x w i Wr Op) as (pi & pp & ch & pr & Fl & _ & T). unfold tri in T.
  split; [intros E|intros [(m & E)|E]]; rewrite E in T.
  - destruct T as (_ & _ & _ & H1 & (f & H2 & H3) & _). split; auto. exists f. split; auto. eapply written_holds; eauto.
  - destruct T as (_ & H1 & H2 & _). auto.
  - destruct T as (_ & H1 & H2 & _). auto.
Qed.

(** C40 *)
Theorem write_schema version x (w : world) i : writable version (wO w) i -> open_ok w -> lucky S w ->
  exists w' f, write_boozmn S version x w = IOk tt w' /\ wFS w' x = Some (Whole f) /\
    nf_dims f = [("radius", nsin i + 1); ("mn_mode", mnboz i); ("mn_modes", mnboz i); ("comput_surfs", nsurf i); ("pack_rad", nsurf i);
                 (dim_str (22 + String.length version), Z.of_nat (22 + String.length version))]%string /\
    map (fun v => (vr_name v, vr_dims v, lookup (vr_atts v) "units")) (nf_vars f) = blayout version (asym i) (has_fluxes (wO w)) /\
    holds_results (wO w) i f.
Proof.
  intros Wr Op L. destruct (write_lucky version x w i Wr Op L) as (pi & pp & ch & pr & w' & Fl & Ft & E & Gd).
  destruct Gd as (_ & _ & _ & _ & (f & H2 & H3) & _). exists w', f. splits; auto.
  - apply H3.
  - rewrite (wt_vars _ _ _ _ _ _ H3). now rewrite bd_asym.
  - eapply written_holds; eauto.
Qed.

(** C45, write *)
Theorem write_closes version x (w : world) i w' : writable version (wO w) i -> open_ok w ->
  write_boozmn S version x w = IOk tt w' -> wOpen w' = wOpen w.
Proof.
  intros Wr Op E. destruct (write_all version x w i Wr Op) as (pi & pp & ch & pr & Fl & _ & T). unfold tri in T. rewrite E in T. apply T.
Qed.


(** C35 *)
Lemma loaded_restored version (o o2 o' : obj) i pi pp ch pr : (forall x : F, fneg S (fneg S x) = x) ->
  writable version o i -> flux_are o (nsin i + 1) (has_fluxes o) pi pp ch pr ->
  let d := bd i (has_fluxes o) pi pp ch pr in
  loaded S d o2 o' -> vec_is (oA o' A_chi) (b_radius S d) (b_chi S d) -> restored o i o'.
Proof.
  intros Neg Wr Fl d Ld Lc. destruct (after_run_holds o i (wb_run _ _ _ Wr)) as (O & R & Q & W).
  pose proof (ok_nsin _ _ O) as Hn. pose proof (mnboz_fits i O) as Hm.
  assert (Sg : forall m y, bsign S m (bsign S m y) = y) by (intros m y; destruct m; cbn; auto).
  assert (Mt : forall x m, In (x, m) bvars_sym \/ (asym i = true /\ In (x, m) bvars_asym) -> In m (outs (asym i)) /\ oA o' m = oA o m).
  { intros x m Hin. assert (Ho : In m (outs (asym i))).
    { unfold outs. destruct Hin as [Hin|(As & Hin)]; [destruct (asym i)|rewrite As]; cbn in Hin |- *;
        repeat destruct Hin as [X|Hin]; try injection X as <- <-; tauto. }
    split; [exact Ho|]. apply (mat_is_eq _ _ (mnboz i) (nsurf i) (fun k b => o_coef i (surf i b) m k)); [|exact (q_out _ _ _ Q m Ho)].
    assert (L : mat_is (oA o' m) (mnboz i) (nsurf i) (fun k b => bsign S m (b_mat S d m k b))).
    { destruct Hin as [Hin|(As & Hin)]; [exact (ld_sym _ _ _ _ Ld x m Hin)|]. pose proof (ld_matA _ _ _ _ Ld x m Hin) as X.
      unfold d in X. rewrite bd_asym, As in X. exact X. }
    eapply mat_ext; [|exact L]. cbv beta. intros k b Hk Hb. cbn. apply Sg. }
  constructor.
  - rewrite (ld_asym _ _ _ _ Ld), (r_asym _ _ _ R). unfold d. now rewrite bd_asym.
  - intros g Hin. cbn in Hin. repeat destruct Hin as [<-|Hin]; try contradiction.
    + now rewrite (ld_nfp _ _ _ _ Ld), (r_nfp _ _ _ R).
    + now rewrite (ld_mboz _ _ _ _ Ld), (r_mboz _ _ _ R).
    + now rewrite (ld_nboz _ _ _ _ Ld), (r_nboz _ _ _ R).
    + now rewrite (ld_mnboz _ _ _ _ Ld), (q_mnboz _ _ _ Q).
    + rewrite (ld_ns_in _ _ _ _ Ld), (r_nsin _ _ _ R). f_equal. cbn. lia.
    + now rewrite (ld_ns_b _ _ _ _ Ld), (q_ns_b _ _ _ Q).
  - intros g Hin. cbn in Hin. repeat destruct Hin as [<-|Hin]; try contradiction.
    + eapply vec_is_eq; [exact (ld_xm _ _ _ _ Ld)|apply Q].
    + eapply vec_is_eq; [exact (ld_xn _ _ _ _ Ld)|apply Q].
    + eapply vec_is_eq; [|apply R]. eapply vec_ext; [|exact (ld_surfs _ _ _ _ Ld)]. cbv beta. intros j Hj. cbn. lia.
  - assert (Rd : forall (a b : arr S) g h, vec_is a (b_radius S d - 1) g -> vec_is b (nsin i) h ->
       (forall j, 0 <= j < nsin i -> g j = h j) -> a = b).
    { intros a b g h Ha Hb E. replace (b_radius S d - 1) with (nsin i) in Ha by (cbn; lia).
      eapply vec_is_eq; [|exact Hb]. eapply vec_ext; [|exact Ha]. exact E. }
    assert (Dj : forall j (y z : F), 0 <= j -> (if j + 1 =? 0 then y else z) = z) by (intros j y z Hj; destruct (Z.eqb_spec (j + 1) 0); [lia|reflexivity]).
    intros g Hin. cbn in Hin. repeat destruct Hin as [<-|Hin]; try contradiction.
    + eapply Rd; [exact (ld_iota _ _ _ _ Ld)|apply R|]. intros j Hj. cbn. rewrite Dj by lia. f_equal. lia.
    + eapply Rd; [exact (ld_G _ _ _ _ Ld)|apply Q|]. intros j Hj. cbn. rewrite Dj by lia. f_equal. lia.
    + eapply Rd; [exact (ld_I _ _ _ _ Ld)|apply Q|]. intros j Hj. cbn. rewrite Dj by lia. f_equal. lia.
    + apply (Mt "bmnc_b"%string). cbn. auto 10.
    + apply (Mt "rmnc_b"%string). cbn. auto 10.
    + apply (Mt "zmns_b"%string). cbn. auto 10.
    + apply (Mt "pmns_b"%string). cbn. auto 10.
    + apply (Mt "gmn_b"%string). cbn. auto 10.
  - intros As g Hin. cbn in Hin. repeat destruct Hin as [<-|Hin]; try contradiction.
    + apply (Mt "bmns_b"%string). cbn. auto 10.
    + apply (Mt "rmns_b"%string). cbn. auto 10.
    + apply (Mt "zmnc_b"%string). cbn. auto 10.
    + apply (Mt "pmnc_b"%string). cbn. auto 10.
    + apply (Mt "gmns_b"%string). cbn. auto 10.
  - intros Gr. eapply vec_is_eq; [|apply Q]. eapply vec_ext; [|exact (ld_s_b _ _ _ _ Ld)]. cbv beta. intros j Hj. cbn.
    replace (surf i j + 2 - 2) with (surf i j) by lia.
    pose proof (Gr (surf i j) (ok_surf _ _ O j Hj)) as X. rewrite (elem_vec _ _ _ _ _ (r_sin _ _ _ R)) in X by (apply (ok_surf _ _ O j Hj)).
    now injection X.
  - intros E. destruct (Fl E) as (F1 & F2 & F3 & F4). unfold d in *. rewrite E in *.
    splits.
    + intros g Hin. cbn in Hin. repeat destruct Hin as [<-|Hin]; try contradiction.
      * eapply vec_is_eq; [exact (ld_phi _ _ _ _ Ld)|exact F1].
      * eapply vec_is_eq; [exact Lc|exact F3].
      * eapply vec_is_eq; [exact (ld_pres _ _ _ _ Ld)|exact F4].
    + rewrite (vec_is_asize _ _ _ (ld_phip _ _ _ _ Ld)), (vec_is_asize _ _ _ F2). reflexivity.
    + intros j. pose proof (ld_phip _ _ _ _ Ld) as Lp. cbn in Lp.
      destruct (Z_lt_dec j 0) as [Hj|Hj]; [|destruct (Z_lt_dec j (nsin i + 1)) as [Hj'|Hj']].
      * destruct (Z.eqb_spec j 0); [lia|]. unfold elem. destruct (Z.leb_spec 0 j); [lia|reflexivity].
      * rewrite (elem_vec _ _ _ _ j Lp), (elem_vec _ _ _ _ j F2) by lia. now destruct (j =? 0).
      * destruct (Z.eqb_spec j 0); [lia|]. unfold elem. rewrite (vec_is_asize _ _ _ Lp), (vec_is_asize _ _ _ F2).
        destruct (Z.ltb_spec j (nsin i + 1)); [lia|]. now rewrite andb_false_r.
    + rewrite (elem_vec _ _ _ _ (nsin i) F1) by lia. rewrite (ld_flux _ _ _ _ Ld). cbn. do 3 f_equal. lia.
  - intros E. unfold d in *. rewrite E in *. split.
    + intros g Hin j Hj. cbn in Hin. repeat destruct Hin as [<-|Hin]; try contradiction.
      * exact (elem_vec _ _ _ _ j (ld_phi _ _ _ _ Ld) Hj).
      * exact (elem_vec _ _ _ _ j (ld_phip _ _ _ _ Ld) Hj).
      * exact (elem_vec _ _ _ _ j Lc Hj).
      * exact (elem_vec _ _ _ _ j (ld_pres _ _ _ _ Ld) Hj).
    + rewrite (ld_flux _ _ _ _ Ld). reflexivity.
Qed.

Lemma round_trip_full version x (w : world) i (o2 : obj) : (forall y : F, fneg S (fneg S y) = y) ->
  writable version (wO w) i -> open_ok w -> lucky S w -> usable o2 ->
  exists w1 w2 d, write_boozmn S version x w = IOk tt w1 /\ read_boozmn S x (setO w1 o2) = IOk tt w2 /\
    loaded S d o2 (wO w2) /\ b_nsurf S d = nsurf i /\ restored (wO w) i (wO w2) /\
    b_ns S d = nsin i + 1 /\ (forall j, b_jlist S d j = surf i j + 2).
Proof.
  intros Neg Wr Op L (W2 & vb & Vb).
  destruct (write_lucky version x w i Wr Op L) as (pi & pp & ch & pr & w1 & Fl & Ft & E & G1 & G2 & G3 & G4 & (f & G5 & G6) & G7).
  set (d := bd i (has_fluxes (wO w)) pi pp ch pr) in *.
  assert (T : _) by (apply (read_boozmn_spec S f d (wt_data _ _ _ _ _ _ G6)) with (x := x) (w := setO w1 o2) (q0 := []) (vb := vb);
    [ destruct Ft as [Z1 Z2 Z3 Z4 Z5]; constructor; [lia|unfold INT_MAX; lia|unfold INT_MAX; lia|exact Z4]
    | exact G5
    | split; [exact W2|]; cbn; rewrite G1, G2; eapply Forall_impl; [|exact Op]; cbn; intros; lia
    | intros _; cbn; auto
    | exact Vb ]).
  unfold tri in T. destruct (read_boozmn S x (setO w1 o2)) as [[] w2|m w2|y|w2] eqn:E2.
  - destruct T as (T1 & T2 & _). destruct (wt_all _ _ _ _ _ _ G6) as (C1 & C2). specialize (T2 eq_refl C2).
    exists w1, w2, d. splits; auto. eapply loaded_restored; eauto.
  - destruct T as (_ & X). destruct (X eq_refl). apply (wt_all _ _ _ _ _ _ G6).
  - contradiction.
  - destruct T as (_ & X). contradiction.
Qed.
Theorem round_trip version x (w : world) i (o2 : obj) : (forall y : F, fneg S (fneg S y) = y) ->
  writable version (wO w) i -> open_ok w -> lucky S w -> usable o2 ->
  exists w1 w2, write_boozmn S version x w = IOk tt w1 /\ read_boozmn S x (setO w1 o2) = IOk tt w2 /\ restored (wO w) i (wO w2).
Proof. intros H1 H2 H3 H4 H5. destruct (round_trip_full version x w i o2 H1 H2 H3 H4 H5) as (w1 & w2 & d & A & B & _ & _ & C & _). eauto. Qed.
(** s_b is always recomputed as on the half grid of VMEC. *)
Theorem round_trip_s_b version x (w : world) i (o2 : obj) : (forall y : F, fneg S (fneg S y) = y) ->
  writable version (wO w) i -> open_ok w -> lucky S w -> usable o2 ->
  exists w1 w2, write_boozmn S version x w = IOk tt w1 /\ read_boozmn S x (setO w1 o2) = IOk tt w2 /\
    forall j, 0 <= j < nsurf i -> elem (wO w2) A_s_b j =
      Some (Some (f1 S / (fofZ S (nsin i + 1) - f1 S) * (fofZ S (surf i j) + flit S (1 # 2)))%sc).
Proof.
  intros H1 H2 H3 H4 H5. destruct (round_trip_full version x w i o2 H1 H2 H3 H4 H5) as (w1 & w2 & d & A & B & C & D & _ & E1 & E2).
  exists w1, w2. splits; auto. intros j Hj. rewrite <- D in Hj. rewrite (elem_vec _ _ _ _ j (ld_s_b _ _ _ _ C) Hj).
  rewrite E1, E2. now replace (surf i j + 2 - 2) with (surf i j) by lia.
Qed.

(** C36 *)
Theorem not_restored version x (w : world) i (o2 : obj) : (forall y : F, fneg S (fneg S y) = y) ->
  writable version (wO w) i -> open_ok w -> lucky S w -> usable o2 ->
  exists w1 w2, write_boozmn S version x w = IOk tt w1 /\ read_boozmn S x (setO w1 o2) = IOk tt w2 /\
    oF (wO w2) F_aspect = oF o2 F_aspect /\ oA (wO w2) A_Boozer_G = oA o2 A_Boozer_G /\ oA (wO w2) A_Boozer_I = oA o2 A_Boozer_I.
Proof.
  intros H1 H2 H3 H4 H5. destruct (round_trip_full version x w i o2 H1 H2 H3 H4 H5) as (w1 & w2 & d & A & B & C & _).
  exists w1, w2. splits; auto.
  - apply (ld_F _ _ _ _ C). discriminate.
  - apply (ld_A _ _ _ _ C). cbn. intuition discriminate.
  - apply (ld_A _ _ _ _ C). cbn. intuition discriminate.
Qed.

End Thms.

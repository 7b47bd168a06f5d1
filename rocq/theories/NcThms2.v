(** More theorems about files: indeterminate values, clobbering, edits of compute_surfs, incomplete
    files, handles. *)
From Coq Require Import ZArith QArith List String Bool Lia.
From Verif Require Import Scalar Prog Model Wp Func Step TrigProof InitProof RunProof Par FuncExt Spec RunThms
  Vmec VmecSpec VmecRun VmecThms Nc NcModel NcSpec NcTri NcRead NcBoozmn NcWout NcWrite NcWriteB NcVoc NcThms.
Import ListNotations.
Local Open Scope Z_scope.

Section Thms.
Variable S : Scalar.
Notation obj := (obj S).
Notation world := (world S).
Notation io := (io S).
Notation file := (ncfile S).
Notation F := (F S).

(** ** C37 *)
Lemma find_self (l : list (ncvar S)) v : NoDup (map vr_name l) -> In v l -> find (fun u => String.eqb (vr_name u) (vr_name v)) l = Some v.
Proof.
  induction l as [|u l IH]; cbn; [contradiction|]. intros H [->|Hin].
  - now rewrite String.eqb_refl.
  - inversion H as [|a b H1 H2]; subst. destruct (String.eqb_spec (vr_name u) (vr_name v)) as [E|]; auto.
    destruct H1. rewrite E. now apply in_map.
Qed.
Lemma znth_in {T} (l : list T) c : In c l -> exists p, 0 <= p < Z.of_nat (List.length l) /\ znth l p = Some c.
Proof.
  intros Hin. apply In_nth_error in Hin. destruct Hin as (n & E). exists (Z.of_nat n). split.
  - assert (n < List.length l)%nat by (apply nth_error_Some; congruence). lia.
  - unfold znth. destruct (Z.ltb_spec (Z.of_nat n) 0); [lia|]. now rewrite Nat2Z.id.
Qed.
Lemma vec_full {T} n (l : list (option T)) g : vec_is (mkArr n 1 l) n g -> Forall (fun c => c <> None) l.
Proof.
  intros (_ & _ & H1 & H2). cbn in H1, H2. apply Forall_forall. intros c Hc. destruct (znth_in _ _ Hc) as (p & Hp & E).
  rewrite H2 in E by lia. injection E as <-. discriminate.
Qed.
Lemma mat_full {T} r c (l : list (option T)) g : mat_is (mkArr r c l) r c g -> Forall (fun c => c <> None) l.
Proof.
  intros (H0 & H1 & _ & _ & H2 & H3). cbn in H2, H3. apply Forall_forall. intros y Hc. destruct (znth_in _ _ Hc) as (p & Hp & E).
  rewrite H2 in Hp. assert (0 < r) by nia. rewrite (Z.div_mod p r) in E by lia.
  replace (r * (p / r) + p mod r) with (p mod r + (p / r) * r) in E by lia.
  pose proof (Z.mod_pos_bound p r ltac:(lia)).
  assert (0 <= p / r < c) by (split; [apply Z.div_pos; lia|apply Z.div_lt_upper_bound; lia]).
  rewrite H3 in E by lia. injection E as <-. discriminate.
Qed.
Lemma full_map {A B} (h : A -> option B) (l : list (option A)) (k : option A -> option B) :
  k None = None -> Forall (fun c => c <> None) (map k l) -> Forall (fun c => c <> None) l.
Proof.
  intros Hk H. apply Forall_forall. intros c Hc ->. rewrite Forall_forall in H. apply (H (k None)); [|exact Hk]. now apply in_map.
Qed.
Lemma det_int v l : to_int (S := S) v = Some (l, false) -> Forall (fun c => c <> None) l -> determinate v.
Proof.
  destruct v as [m|m|s]; cbn; intros E H; [injection E as <-; exact H| |exact Logic.I].
  injection E as E1 E2. subst l. eapply (full_map (fun _ => @None Z)); [|exact H]. reflexivity.
Qed.
Lemma det_dbl v l : to_dbl (S := S) v = Some (l, false) -> Forall (fun c => c <> None) l -> determinate v.
Proof.
  destruct v as [m|m|s]; cbn; intros E H; [|injection E as <-; exact H|exact Logic.I].
  injection E as E1. subst l. eapply (full_map (fun _ => @None F)); [|exact H]. reflexivity.
Qed.
Definition det (f : file) (x : string) : Prop := forall v, find_var f x = Some v -> determinate (vr_val v).
Lemma det_ints f x n g : holds_ints S f x n g -> det f x.
Proof. intros H v Hv. destruct (H v Hv) as (l & E & V). eapply det_int; [exact E|]. eapply vec_full; exact V. Qed.
Lemma det_vec f x n g : holds_vec S f x n g -> det f x.
Proof. intros H v Hv. destruct (H v Hv) as (l & E & V). eapply det_dbl; [exact E|]. eapply vec_full; exact V. Qed.
Lemma det_mat f x r c g : holds_mat S f x r c g -> det f x.
Proof. intros H v Hv. destruct (H v Hv) as (l & E & V). eapply det_dbl; [exact E|]. eapply mat_full; exact V. Qed.

Lemma layout_names version asy fl : NoDup (map sname (blayout version asy fl)).
Proof. apply nodupb_ok. destruct asy; vm_compute; reflexivity. Qed.

Lemma written_det version (o : obj) d f : written S version o d false f -> oF o F_aspect <> None ->
  forall v, In v (nf_vars f) -> determinate (vr_val v).
Proof.
  intros W Ha v Hin.
  assert (N : NoDup (map vr_name (nf_vars f))).
  { replace (map vr_name (nf_vars f)) with (map sname (blayout version (b_asym S d) false)); [apply layout_names|].
    rewrite <- (wt_vars _ _ _ _ _ _ W), map_map. reflexivity. }
  assert (Fv : find_var f (vr_name v) = Some v) by (now apply find_self).
  assert (Hn : In (vr_name v) (map sname (blayout version (b_asym S d) false))).
  { rewrite <- (wt_vars _ _ _ _ _ _ W), map_map. apply in_map_iff. exists v. auto. }
  cut (det f (vr_name v)); [intros X; now apply X|].
  pose proof (wt_data _ _ _ _ _ _ W) as B. destruct B.
  assert (Zs : forall y, In y ["rmax_b"; "rmin_b"; "betaxis_b"]%string -> det f y).
  { intros y Hy u Hu. destruct (wt_zeros _ _ _ _ _ _ W y Hy) as (u' & Hu' & Ev). rewrite Hu' in Hu. injection Hu as <-. rewrite Ev. cbn.
    constructor; [discriminate|constructor]. }
  assert (Bt : det f "beta_b").
  { intros u Hu. destruct (wt_beta _ _ _ _ _ _ W) as (u' & l & Hu' & Ev & _ & Hl). rewrite Hu' in Hu. injection Hu as <-. rewrite Ev. cbn.
    eapply Forall_impl; [|exact Hl]. cbn. intros c ->. discriminate. }
  assert (Vn : det f "version").
  { intros u Hu. destruct (wt_version _ _ _ _ _ _ W) as (u' & Hu' & Ev). rewrite Hu' in Hu. injection Hu as <-. rewrite Ev. exact Logic.I. }
  assert (As : det f "aspect_b").
  { intros u Hu. destruct (wt_aspect _ _ _ _ _ _ W) as (u' & Hu' & Ev). rewrite Hu' in Hu. injection Hu as <-. rewrite Ev. cbn.
    constructor; [exact Ha|constructor]. }
  unfold blayout in Hn. rewrite map_app in Hn. apply in_app_or in Hn. destruct Hn as [Hn|Hn].
  - cbn in Hn. repeat destruct Hn as [<-|Hn]; try contradiction;
      first [ exact Vn | exact As | exact Bt | apply Zs; cbn; tauto
            | solve [eapply det_ints; first [exact bf_lasym | exact bf_ns | exact bf_nfp | exact bf_mboz | exact bf_nboz | exact bf_mnboz
                | exact bf_jlist | exact bf_xm | exact bf_xn]]
            | solve [eapply det_vec; first [exact bf_iota | exact bf_I | exact bf_G | exact bf_phip | exact bf_chi | exact bf_pres | exact bf_phi]]
            | solve [eapply det_mat; eapply bf_sym; cbn; auto 10] ].
  - destruct (b_asym S d) eqn:Ea; [|contradiction]. cbn in Hn. repeat destruct Hn as [<-|Hn]; try contradiction;
      eapply det_mat; eapply (bf_asym eq_refl); cbn; auto 10.
Qed.

Theorem write_determinate version x (w : world) i w' : writable version (wO w) i -> open_ok w ->
  has_fluxes (wO w) = false -> oF (wO w) F_aspect <> None ->
  write_boozmn S version x w = IOk tt w' ->
  exists f, wFS w' x = Some (Whole f) /\ forall v, In v (nf_vars f) -> determinate (vr_val v).
Proof.
  intros Wr Op Nf Ha E. destruct (write_all S version x w i Wr Op) as (pi & pp & ch & pr & Fl & _ & T). unfold tri in T. rewrite E in T.
  destruct T as (_ & _ & _ & _ & (f & H2 & H3) & _). exists f. split; auto. rewrite Nf in H3. eapply written_det; eauto.
Qed.
Theorem beta_indeterminate version x (w : world) i w' : writable version (wO w) i -> open_ok w ->
  has_fluxes (wO w) = true -> write_boozmn S version x w = IOk tt w' ->
  exists f, wFS w' x = Some (Whole f) /\ forall j, 0 <= j < nsin i + 1 -> dcell f "beta_b" j = Some None.
Proof.
  intros Wr Op Nf E. destruct (write_all S version x w i Wr Op) as (pi & pp & ch & pr & Fl & _ & T). unfold tri in T. rewrite E in T.
  destruct T as (_ & _ & _ & _ & (f & H2 & H3) & _). exists f. split; auto. rewrite Nf in H3.
  destruct (wt_beta _ _ _ _ _ _ H3) as (v & l & Hv & Ev & Hl & Hf). intros j Hj. unfold dcell. rewrite Hv, Ev. cbn.
  destruct (znth l j) as [c|] eqn:Ec.
  - f_equal. rewrite Forall_forall in Hf. apply Hf. unfold znth in Ec. destruct (j <? 0); [discriminate|]. eapply nth_error_In; eauto.
  - exfalso. apply znth_None in Ec. cbn in Hl. lia.
Qed.

(** ** C39: a failure right after the file was created *)
Lemma ibind_ok {A B} (m : io A) (k : A -> io B) w a w' : m w = IOk a w' -> ibind m k w = k a w'.
Proof. unfold ibind. now intros ->. Qed.
Lemma after_create version x (w : world) i q : writable version (wO w) i -> 
  exists k ev, write_boozmn S version x (setQ w (Fine :: q)) = ibind (wdim S (mkWr (wNext w) []) "radius" (nsin i + 1)) k
    (mkW (wO w) (fun y => if String.eqb y x then Some Torn else wFS w y) ((wNext w, Writing x (mkFile [] [])) :: wOpen w) (wNext w + 1) q (wEv w ++ ev)).
Proof.
  intros Wr. destruct (after_run_holds S _ i (wb_run _ _ _ Wr)) as (O & R & _ & _). pose proof (wb_nsin _ _ _ Wr).
  pose proof (ok_nsin _ _ O).
  unfold write_boozmn.
  assert (C : exists ev, chatter S (out ("Writing output to " ++ x) [] []) (setQ w (Fine :: q)) = IOk tt (addEv (setQ w (Fine :: q)) ev)).
  { unfold chatter, lift. rewrite bind_run. cbn [geti run wO setQ]. rewrite (r_verb _ _ _ R). cbn [emit]. destruct (0 <? verb i); cbn; eauto. }
  destruct C as (ev & C). rewrite (ibind_ok _ _ _ _ _ C).
  erewrite ibind_ok; [|unfold new_writer, nc_create, call, ibind; cbn; reflexivity].
  erewrite ibind_ok; [|unfold lift; cbn [geti run wO]; cbn; rewrite (r_nsin _ _ _ R); reflexivity].
  erewrite ibind_ok; [|unfold lift, iadd, int_; rewrite (in_int_true (nsin i + 1)) by (unfold INT_MIN, INT_MAX; lia); reflexivity].
  eexists. exists ev. unfold addEv, setO, setFS. cbn. rewrite !app_nil_r. reflexivity.
Qed.
Theorem dies_torn version x (w : world) i : writable version (wO w) i -> wQ w = [Fine; Die] ->
  exists w', write_boozmn S version x w = IDie w' /\ wFS w' x = Some Torn.
Proof.
  intros Wr Q. destruct (after_create version x w i [Die] Wr) as (k & ev & E).
  replace (setQ w [Fine; Die]) with w in E by (destruct w; cbn in *; now rewrite Q).
  rewrite E. unfold wdim, nc_def_dim, define, call, ibind. cbn. eexists. split; [reflexivity|]. cbn. now rewrite String.eqb_refl.
Qed.
Theorem fails_torn version x (w : world) i msg : writable version (wO w) i -> wQ w = [Fine; Fail msg] ->
  exists w', write_boozmn S version x w = IThrow msg w' /\ wFS w' x = Some Torn /\
    wOpen w' = (wNext w, Writing x (mkFile [] [])) :: wOpen w.
Proof.
  intros Wr Q. destruct (after_create version x w i [Fail msg] Wr) as (k & ev & E).
  replace (setQ w [Fine; Fail msg]) with w in E by (destruct w; cbn in *; now rewrite Q).
  rewrite E. unfold wdim, nc_def_dim, define, call, ibind. cbn. eexists. split; [reflexivity|]. cbn. now rewrite String.eqb_refl.
Qed.

End Thms.

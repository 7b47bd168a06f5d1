(** The two programs: what they do with a control file. *)
From Coq Require Import ZArith List String Ascii Bool Lia Sorted Permutation.
From Verif Require Import Scalar Prog Model Wp Func Step TrigProof InitProof RunProof Par FuncExt Spec RunThms
  Vmec VmecSpec VmecRun VmecThms Nc NcModel NcSpec NcTri NcRead NcBoozmn NcWout NcWrite NcWriteB NcVoc NcThms NcThms2 NcEdit NcThms3
  Driver DriverSpec DriverParse DriverQuiet.
Import ListNotations.
Local Open Scope Z_scope.

(** ** Sorting *)
Lemma insert_perm x l : Permutation (x :: l) (insert x l).
Proof.
  induction l as [|y l IH]; cbn; [auto|]. destruct (x <=? y); [auto|]. rewrite perm_swap. now constructor.
Qed.
Lemma sort_perm l : Permutation l (sort l).
Proof. induction l as [|x l IH]; cbn; [auto|]. rewrite <- insert_perm. now constructor. Qed.
Lemma insert_sorted x l : StronglySorted Z.le l -> StronglySorted Z.le (insert x l).
Proof.
  induction 1 as [|y l Hl IH Hy]; cbn; [constructor; constructor|]. destruct (Z.leb_spec x y).
  - constructor; [constructor; auto|]. constructor; auto. revert Hy. apply Forall_impl. lia.
  - constructor; auto. apply (Permutation_Forall (insert_perm x l)). constructor; [lia|auto].
Qed.
Lemma sort_sorted l : StronglySorted Z.le (sort l).
Proof. induction l as [|x l IH]; cbn; [constructor|]. now apply insert_sorted. Qed.
Lemma sorted_unique l : forall l', StronglySorted Z.le l -> StronglySorted Z.le l' -> Permutation l l' -> l = l'.
Proof.
  induction l as [|x l IH]; intros l' H H' P.
  - apply Permutation_nil in P. now subst.
  - destruct l' as [|y l']; [symmetry in P; apply Permutation_nil in P; discriminate|].
    inversion H as [|? ? H1 H2]; subst. inversion H' as [|? ? H1' H2']; subst.
    assert (x = y).
    { assert (A : In x (y :: l')) by (apply (Permutation_in x P); cbn; auto).
      assert (B : In y (x :: l)) by (apply (Permutation_in y (Permutation_sym P)); cbn; auto).
      rewrite Forall_forall in H2, H2'. destruct A as [A|A]; [auto|]. destruct B as [B|B]; [auto|]. specialize (H2 y B). specialize (H2' x A). lia. }
    subst y. f_equal. apply IH; auto. now apply Permutation_cons_inv in P.
Qed.
Lemma sort_is l srt : sorted_as l srt -> sort l = srt.
Proof.
  intros (P & H). apply sorted_unique; auto using sort_sorted. rewrite <- P. symmetry. apply sort_perm.
Qed.
Lemma int_array_is l : vec_is (int_array l) (Z.of_nat (List.length l)) (fun k => nth (Z.to_nat k) l 0).
Proof.
  unfold vec_is, int_array. cbn. splits; auto; try lia.
  - rewrite map_length. lia.
  - intros k Hk. unfold znth. destruct (Z.ltb_spec k 0); [lia|]. rewrite (nth_error_nth' (map Some l) None) by (rewrite map_length; lia).
    f_equal. rewrite (nth_indep _ None (Some 0)) by (rewrite map_length; lia). now rewrite map_nth.
Qed.

Section Proof.
Variable S : Scalar.
Notation obj := (obj S).
Notation world := (world S).
Notation io := (io S).

(** ** With an environment that never fails, there is no call left over for it to fail. *)
Definition calm {A} (m : io A) : Prop := forall w : world, wQ w = [] ->
  match m w with IOk _ w' => wQ w' = [] | IThrow _ w' => wQ w' = [] | IUB _ => True | IDie _ => False end.
Lemma calm_bind {A B} (m : io A) (k : A -> io B) : calm m -> (forall a, calm (k a)) -> calm (ibind m k).
Proof. intros Hm Hk w H. unfold ibind. specialize (Hm w H). destruct (m w); auto. now apply Hk. Qed.
Lemma calm_lift {A} (p : prog S A) : calm (lift p).
Proof. intros w H. unfold lift. destruct (run p (wO w)); auto. Qed.
Lemma calm_call {A} (f : world -> ires S (code A)) : (forall w, wQ w = [] ->
    match f w with IOk _ w' => wQ w' = [] | IThrow _ w' => wQ w' = [] | IUB _ => True | IDie _ => False end) -> calm (call f).
Proof. intros Hf w H. unfold call. rewrite H. now apply Hf. Qed.
Ltac brk := repeat match goal with |- context [match ?x with _ => _ end] =>
  lazymatch x with context [match _ with _ => _ end] => fail | _ => destruct x end end; cbn; auto.
Ltac c1 := match goal with
  | |- calm (match ?x with _ => _ end) => destruct x
  | |- calm (if ?x then _ else _) => destruct x
  | |- calm (ibind _ _) => apply calm_bind; [|intro]
  | |- calm (iret _) => let a := fresh in let b := fresh in intros a b; exact b
  | |- calm (ithrow _) => let a := fresh in let b := fresh in intros a b; exact b
  | |- calm (iub _) => let a := fresh in let b := fresh in intros a b; exact Logic.I
  | |- calm (lift _) => apply calm_lift
  | |- calm (say _ _ _) => let a := fresh in let b := fresh in intros a b; exact b
  | |- calm (theobj _) => let a := fresh in let b := fresh in intros a b; exact b
  | |- calm (setobj _ _) => let a := fresh in let b := fresh in intros a b; exact b
  | |- calm (call _) => apply calm_call; let a := fresh in let b := fresh in intros a b; unfold new_handle; brk
  | |- calm (nc_open _) => unfold nc_open
  | |- calm (nc_inq _) => unfold nc_inq
  | |- calm (nc_inq_dimid _ _) => unfold nc_inq_dimid
  | |- calm (nc_inq_dimlen _ _) => unfold nc_inq_dimlen
  | |- calm (nc_inq_varid _ _) => unfold nc_inq_varid
  | |- calm (nc_get _ _ _ _) => unfold nc_get
  | |- calm (nc_close _) => unfold nc_close
  | |- calm _ => solve [auto with calm]
  end.
Ltac c := repeat c1.
Lemma calm_rchk {A} d (x : code A) : calm (rchk S d x).
Proof. unfold rchk, rerr. c. Qed.
Hint Resolve calm_rchk : calm.
Lemma calm_rget {T} (conv : ncval S -> option (list (option T) * bool)) h x buf store : (forall l, calm (store l)) -> calm (rget S conv h x buf store).
Proof. intros H. unfold rget, rerr. c. Qed.
Ltac g := repeat (c1 || (apply calm_rget; intro)).
Lemma calm_reader x : calm (reader S x).
Proof. unfold reader. c. Qed.
Lemma calm_get_int h x f : calm (get_int S h x f).
Proof. unfold get_int. g. Qed.
Lemma calm_get_flt h x f : calm (get_flt S h x f).
Proof. unfold get_flt. g. Qed.
Lemma calm_get_ints h x f : calm (get_ints S h x f).
Proof. unfold get_ints. g. Qed.
Lemma calm_get_local_int h x : calm (get_local_int S h x).
Proof. unfold get_local_int, drop. g. Qed.
Lemma calm_get_mat h x r k : calm (get_mat S h x r k).
Proof. unfold get_mat, new_mat, get_local, drop. g. Qed.
Lemma calm_get_vec h x n : calm (get_vec S h x n).
Proof. unfold get_vec, new_vec, get_local, drop. g. Qed.
Lemma calm_val {T} (x : option T) : calm (val S x).
Proof. unfold val. c. Qed.
Lemma calm_resize f n : calm (resize_ints S f n).
Proof. unfold resize_ints. c. Qed.
Lemma calm_rclose h : calm (rclose S h).
Proof. unfold rclose. c. Qed.
Lemma calm_chatter p : calm (chatter S p).
Proof. unfold chatter. c. Qed.
Hint Resolve calm_reader calm_get_int calm_get_flt calm_get_ints calm_get_local_int calm_get_mat calm_get_vec calm_val calm_resize calm_rclose calm_chatter : calm.
Lemma calm_read_wout x flux : calm (read_wout S x flux).
Proof. unfold read_wout. c. Qed.
Lemma calm_get_arr h x f : calm (get_arr S h x f).
Proof. unfold get_arr. g. Qed.
Lemma calm_get_local h x b : calm (get_local S h x b).
Proof. unfold get_local, drop. g. Qed.
Lemma calm_getdim h x : calm (getdim S h x).
Proof. unfold getdim. c. Qed.
Lemma calm_resize_arr f n k : calm (resize_arr S f n k).
Proof. unfold resize_arr. c. Qed.
Lemma calm_new_vec n : calm (new_vec S n).
Proof. unfold new_vec. c. Qed.
Lemma calm_itry (m : io unit) : calm m -> calm (itry m).
Proof. intros H w L. unfold itry. specialize (H w L). destruct (m w); auto. Qed.
Hint Resolve calm_get_arr calm_get_local calm_getdim calm_resize_arr calm_new_vec calm_itry : calm.
Lemma calm_read_boozmn x : calm (read_boozmn S x).
Proof. unfold read_boozmn. c. Qed.

(** ** Reading the wout file into a new object *)
Lemma new_obj_wf : wf_obj (obj_new S).
Proof.
  constructor; intros f; cbn.
  - split; [apply wf_empty_vec|reflexivity].
  - destruct f; auto using wf_empty_vec, wf_empty_mat.
Qed.
Lemma new_selects n : selects (obj_new S) n.
Proof. exists 0, (fun _ => 0). split; [|intros; lia]. unfold vec_is. cbn. splits; auto; intros; lia. Qed.
Lemma fresh_wout f la asp i d x (w : world) : wfile S f la asp i d -> wsane S la i d -> wout_ok i d ->
  verb i = 1 -> wFS w x = Some (Whole f) -> open_ok w -> wO w = obj_new S ->
  tri (read_wout S x (d_flux S d)) w
    (fun _ w' => wFS w' = wFS w /\ wOpen w' = wOpen w /\ wNext w' = wNext w + 1 /\ (wQ w = [] -> wQ w' = []) /\ wcomplete S f i d /\
       repr (wO w') (from_vmec i d) /\ fluxes_stored (wO w') d /\ oF (wO w') F_aspect = Some asp /\ wf_obj (wO w'))
    (fun w' => wFS w' = wFS w /\ (wQ w = [] -> ~ wcomplete S f i d))
    (fun w' => wFS w' = wFS w /\ wQ w <> []).
Proof.
  intros Wf Ws Gk Hv Hf Op Eo.
  assert (Hv' : oI (wO w) I_verbose = Some (verb i)) by (rewrite Eo, Hv; reflexivity).
  assert (Sl : selects (wO w) (d_ns S d - 1)) by (rewrite Eo; apply new_selects).
  assert (Hs : exists n g, vec_is (oN (wO w) N_compute_surfs) n g) by (destruct Sl as (n & g & V & _); eauto).
  assert (Wo : wf_obj (wO w)) by (rewrite Eo; apply new_obj_wf).
  assert (Acc : forall om v, staged S asp i (wO w) om -> wf_obj om -> vholds v i d -> accepted om i v d).
  { intros om v G Wm D. constructor; auto; try apply Gk; [eapply staged_base; eauto|eapply staged_shape; eauto]. }
  pose proof (wout_no_ub S asp i d (wO w) Gk Hv' Hs) as NU.
  pose proof (read_wout_spec S f la asp i d Wf Ws x w (wQ w) (verb i) Hf (conj Wo Op) (fun H => H) Hv' NU) as T.
  pose proof (calm_read_wout x (d_flux S d) w) as Cm.
  unfold tri in *. destruct (read_wout S x (d_flux S d) w) as [[] w'|m w'|y|w'] eqn:Er; auto.
  - destruct T as (T1 & T2 & T3 & T4 & om & v & ev & G & Wm & D & E).
    destruct (vmec_total om i v d (Acc om v G Wm D)) as (o' & E' & R & Fx & Fr & Wf'). unfold vmec_ok in E'. rewrite E in E'.
    injection E' as <- _. splits; auto. rewrite (vf_F _ _ _ _ Fr) by discriminate. apply G.
  - destruct T as (T1 & T2). split; auto. intros L. destruct (T2 L) as [T|(_ & om & v & m' & ev & G & Wm & D & E)]; auto.
    destruct (vmec_total om i v d (Acc om v G Wm D)) as (o' & E' & _). unfold vmec_ok in E'. congruence.
Qed.

Lemma elems_run (o : obj) n g : vec_is (oN o N_compute_surfs) n g -> exists l, run (elems_n S N_compute_surfs) o = ROk l o [].
Proof.
  intros V. assert (Hn : 0 <= n) by (destruct V as (_ & _ & X & _); lia).
  assert (X : wp fp_any (elems_n S N_compute_surfs) o (fun _ o' ev => o' = o /\ ev = [])).
  { unfold elems_n. eapply wp_sizen; [exact V|].
    eapply wp_mono; [|apply (wp_for_pure S fp_any _ (fun _ _ => True)); [exact Hn|exact Logic.I|]].
    - cbv beta. intros l o' ev (-> & -> & _). auto.
    - intros k l Hk _. eapply wp_getn; [exact V|exact Hk|]. cbn. auto. }
  apply (wp_run S) in X. destruct X as (l & o' & ev & E & -> & ->). eauto.
Qed.

(** The object that is transformed *)
Definition prepared (o : obj) (i : Inp S) (mb nb : Z) (srt : list Z) : obj :=
  let o := updI (updI o I_mboz (Some (Z.max (6 * mpol i) mb))) I_nboz (Some (Z.max (Z.max (2 * ntor i - 1) 0) nb)) in
  match srt with [] => o | _ => updN o N_compute_surfs (int_array srt) end.
Lemma prepared_ok (o : obj) i d mb nb srt : repr o (from_vmec i d) -> wf_obj o ->
  repr (prepared o i mb nb srt) (request i d mb nb srt) /\ wf_obj (prepared o i mb nb srt).
Proof.
  intros R W. split.
  - destruct R. destruct srt as [|s srt]; constructor; try assumption; try reflexivity. exact (int_array_is (s :: srt)).
  - destruct srt as [|s srt]; constructor; intros f; try apply W. cbn [prepared oN updN updI].
    destruct (nfield_eq_dec f N_compute_surfs); [|apply W]. split; [eapply vec_is_wf; apply int_array_is|reflexivity].
Qed.

Definition same_but (x : string) (w w' : world) : Prop := forall y, y <> x -> wFS w' y = wFS w y.
Definition kept_or_torn (x : string) (w w' : world) : Prop := same_but x w w' /\ (wFS w' x = wFS w x \/ wFS w' x = Some Torn).

(** The shape of a file written in any environment *)
Lemma write_shape version x (w : world) i w' f : writable version (wO w) i -> open_ok w -> write_boozmn S version x w = IOk tt w' ->
  wFS w' x = Some (Whole f) ->
  nf_dims f = [("radius", nsin i + 1); ("mn_mode", mnboz i); ("mn_modes", mnboz i); ("comput_surfs", nsurf i); ("pack_rad", nsurf i);
               (dim_str (22 + String.length version), Z.of_nat (22 + String.length version))]%string /\
  map (fun v => (vr_name v, vr_dims v, lookup (vr_atts v) "units")) (nf_vars f) = blayout version (asym i) (has_fluxes (wO w)).
Proof.
  intros Wr Op E Ef. destruct (write_all S version x w i Wr Op) as (pi & pp & ch & pr & _ & _ & T). unfold tri in T. rewrite E in T.
  destruct T as (_ & _ & _ & _ & (g & H2 & H3) & _). rewrite Ef in H2. injection H2 as <-. split; [apply H3|].
  rewrite (wt_vars _ _ _ _ _ _ H3). now rewrite bd_asym.
Qed.
Lemma work_spec version (w : world) f ext mb nb l srt asp i d : ready version w f ext mb nb srt asp i d -> sorted_as l srt ->
  tri (driver_work S version (mb, nb, ext, l)) w
    (fun z w' => z = 0 /\ wOpen w' = wOpen w /\ wcomplete S f i d /\ same_but (boozmn_name ext) w w' /\
       exists bf, wFS w' (boozmn_name ext) = Some (Whole bf) /\ boozmn_of version (request i d mb nb srt) asp bf)
    (fun w' => kept_or_torn (boozmn_name ext) w w' /\ (wQ w = [] -> ~ wcomplete S f i d /\ wFS w' = wFS w))
    (fun w' => kept_or_torn (boozmn_name ext) w w' /\ wQ w <> []).
Proof.
  intros [Hh (la & Wf & Ws) Gk Fx Hv Op Ok Hn Hns Hver] Srt. unfold driver_work.
  apply tri_bind, tri_setobj. apply tri_bind. change ("wout_" ++ ext ++ ".nc")%string with (wout_name ext).
  replace (read_wout S (wout_name ext) false) with (read_wout S (wout_name ext) (d_flux S d)) by now rewrite Fx.
  eapply tri_mono; [| | |eapply (fresh_wout f la asp i d (wout_name ext) (setO w (obj_new S))); eauto; reflexivity].
  2: { cbv beta. cbn. intros w' (E1 & E2). split; [|intros L; split; auto]. split; [intros y _; now rewrite E1|left; now rewrite E1]. }
  2: { cbv beta. cbn. intros w' (E1 & E2). split; [|exact E2]. split; [intros y _; now rewrite E1|left; now rewrite E1]. }
  cbv beta. cbn [setO wFS wOpen wNext wQ]. intros _ w1 (E1 & E2 & E3 & E4 & Cp & R & Fl & As & W1).
  set (o1 := wO w1) in *.
  (* the two resolutions and the surfaces *)
  apply tri_bind, tri_lift. eapply wp_geti; [exact (r_mboz _ _ _ R)|]. cbn [wp].
  apply tri_bind, tri_lift. cbn [wp seti]. split; [exact Logic.I|].
  apply tri_bind, tri_lift. eapply wp_geti; [cbn; exact (r_nboz _ _ _ R)|]. cbn [wp].
  apply tri_bind, tri_lift. cbn [wp seti]. split; [exact Logic.I|].
  cbn [from_vmec mboz nboz].
  assert (Ready : forall (w2 : world), wO w2 = prepared o1 i mb nb srt -> wFS w2 = wFS w -> wOpen w2 = wOpen w -> wNext w2 = wNext w + 1 ->
    (wQ w = [] -> wQ w2 = []) ->
    tri (ibind (lift (elems_n S N_compute_surfs)) (fun l => ibind (say "About to run transformation with compute_surfs" l []) (fun _ =>
         ibind (lift (bx_run S)) (fun _ => ibind (write_boozmn S version (boozmn_name ext)) (fun _ => ibind (say "Good bye." [] []) (fun _ => iret 0)))))) w2
      (fun z w' => z = 0 /\ wOpen w' = wOpen w /\ wcomplete S f i d /\ same_but (boozmn_name ext) w w' /\
         exists bf, wFS w' (boozmn_name ext) = Some (Whole bf) /\ boozmn_of version (request i d mb nb srt) asp bf)
      (fun w' => kept_or_torn (boozmn_name ext) w w' /\ (wQ w = [] -> ~ wcomplete S f i d /\ wFS w' = wFS w))
      (fun w' => kept_or_torn (boozmn_name ext) w w' /\ wQ w <> [])).
  { intros w2 Ho Hfs Hop Hnx Hq. destruct (prepared_ok o1 i d mb nb srt R W1) as (R2 & W2). rewrite <- Ho in R2, W2.
    assert (V : valid (wO w2) (request i d mb nb srt)) by (split; auto).
    destruct (elems_run (wO w2) _ _ (r_surf _ _ _ R2)) as (l2 & El).
    destruct (run_total (wO w2) _ V) as (o3 & E5 & Fr & R3 & _ & Q3 & W3).
    apply tri_bind. unfold tri at 1, lift at 1. rewrite El. apply tri_bind. unfold tri at 1, say at 1.
    apply tri_bind. unfold tri at 1, lift at 1. cbn [addEv setO wO]. unfold run_ok in E5. rewrite E5.
    set (w3 := addEv _ _).
    assert (Phip : oA o3 A_phip = oA o1 A_phip).
    { rewrite (rf_A _ _ _ _ Fr) by (cbn; destruct (asym i); reflexivity). rewrite Ho. destruct srt; reflexivity. }
    assert (NF : asize (oA o3 A_phip) = 0).
    { rewrite Phip. unfold fluxes_stored in Fl. rewrite Fx in Fl. apply Fl. cbn. auto. }
    assert (Wr : writable version (wO w3) (request i d mb nb srt)).
    { constructor.
      - exact (after_run_intro S _ _ _ _ V E5).
      - left. exact NF.
      - split; [|exact Hn]. destruct srt; cbn [request nsurf from_vmec nsin]; [pose proof (wk_ns _ _ Gk); lia|cbn [List.length]; lia].
      - cbn [request nsin from_vmec]. lia.
      - exact Hver. }
    assert (Op3 : open_ok w3).
    { unfold open_ok in *. cbn. rewrite Hop, Hnx. revert Op. apply Forall_impl. intros p Hp. lia. }
    assert (Hfs3 : wFS w3 = wFS w) by exact Hfs. assert (Hop3 : wOpen w3 = wOpen w) by exact Hop.
    assert (Hq3 : wQ w = [] -> wQ w3 = []) by exact Hq. assert (Ho3 : wO w3 = o3) by reflexivity. clearbody w3.
    apply tri_bind. pose proof (write_safe S version (boozmn_name ext) w3 _ Wr Op3) as (Sf1 & Sf2).
    unfold tri at 1. destruct (write_boozmn S version (boozmn_name ext) w3) as [[] w4|m w4|y|w4] eqn:Ew.
    + destruct (write_files S version (boozmn_name ext) w3 _ w4 Wr Op3) as (Fs & _). destruct (Fs Ew) as (F1 & bf & F2 & F3).
      pose proof (write_closes S version (boozmn_name ext) w3 _ w4 Wr Op3 Ew) as F4.
      unfold tri, ibind, say, iret. splits; auto.
      * cbn. congruence.
      * intros y Hy. cbn. rewrite F1 by auto. now rewrite Hfs3.
      * destruct (write_shape version (boozmn_name ext) w3 _ w4 bf Wr Op3 Ew F2) as (K1 & K2).
        assert (NF' : has_fluxes (wO w3) = false) by (unfold has_fluxes; rewrite Ho3, NF; reflexivity). rewrite NF' in K2.
        exists bf. split; [exact F2|]. split; [|split; [exact K1|exact K2]]. exists (wO w3). splits; auto.
        -- apply Wr.
        -- rewrite Ho3. rewrite (rf_F _ _ _ _ Fr) by reflexivity. rewrite Ho. destruct srt; exact As.
    + destruct (write_files S version (boozmn_name ext) w3 _ w4 Wr Op3) as (_ & Fs). destruct Fs as (F1 & F2); [eauto|].
      split.
      * split; [intros y Hy; rewrite F1 by auto; now rewrite Hfs3|rewrite Hfs3 in F2; exact F2].
      * intros L. destruct (Sf2 (Hq3 L)) as (w5 & E). congruence.
    + exact (Sf1 y eq_refl).
    + destruct (write_files S version (boozmn_name ext) w3 _ w4 Wr Op3) as (_ & Fs). destruct Fs as (F1 & F2); [eauto|].
      split.
      * split; [intros y Hy; rewrite F1 by auto; now rewrite Hfs3|rewrite Hfs3 in F2; exact F2].
      * intros L. destruct (Sf2 (Hq3 L)) as (w5 & E). congruence. }
  apply tri_bind. pose proof (sort_is l srt Srt) as Es.
  destruct l as [|z l].
  - cbn in Es. subst srt. unfold tri at 1, say at 1. apply Ready; auto.
  - rewrite Es. apply tri_lift. cbn [wp setn]. split; [exact Logic.I|].
    apply Ready; auto. destruct srt as [|s srt]; [|reflexivity].
    exfalso. destruct Srt as (P & _). symmetry in P. now apply Permutation_nil in P.
Qed.
End Proof.

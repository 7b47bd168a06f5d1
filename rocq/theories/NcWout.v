(** read_wout. *)
From Coq Require Import ZArith QArith List String Bool Lia.
From Verif Require Import Scalar Prog Wp Func Step TrigProof Spec Vmec VmecSpec VmecRun Nc NcModel NcSpec NcTri NcRead NcBoozmn.
Import ListNotations.
Local Open Scope Z_scope.

Section Wout.
Variable S : Scalar.
Notation obj := (obj S).
Notation arr := (arr S).
Notation world := (world S).
Notation file := (ncfile S).
Notation F := (F S).

Section New.
Variables (f : file) (h : Z) (op : list (Z * hnd S)) (fs : string -> option (disk S)) (q0 : list verdict).
Variables (E D : world -> Prop).
Hypothesis HD : forall w, wFS w = fs -> q0 <> [] -> D w.
Notation rst := (rst S f h op fs q0).
Lemma tri_get_vec_new {B} x n g w (k : arr -> io S B) (Q : B -> world -> Prop) :
  rst w -> holds_vec S f x n g -> 1 <= n ->
  (forall w', rst w' -> wO w' = wO w -> find_var f x = None \/ q0 <> [] -> E w') ->
  (forall w' a, rst w' -> vec_is a n g -> wO w' = wO w -> present S f x -> tri (k a) w' Q E D) ->
  tri (ibind (get_vec S h x n) k) w Q E D.
Proof.
  intros R H Hn He Hk. apply tri_bind. unfold get_vec. eapply (tri_new_vec S f); [exact R|lia|].
  intros w1 a R1 Ha O1. apply tri_unbind. eapply (tri_get_local S f _ _ _ _ _ _ HD); [exact R1|exact H|exact Ha|lia| |].
  - intros w2 R2 O2 X. apply He; auto. congruence.
  - intros w2 b R2 V O2 P. apply tri_ret. apply Hk; auto. congruence.
Qed.
Lemma tri_get_mat_new {B} x r c g w (k : arr -> io S B) (Q : B -> world -> Prop) :
  rst w -> holds_mat S f x r c g -> 1 <= r -> 1 <= c ->
  (forall w', rst w' -> wO w' = wO w -> find_var f x = None \/ q0 <> [] -> E w') ->
  (forall w' a, rst w' -> mat_is a r c g -> wO w' = wO w -> present S f x -> tri (k a) w' Q E D) ->
  tri (ibind (get_mat S h x r c) k) w Q E D.
Proof.
  intros R H Hr Hc He Hk. apply tri_bind. unfold get_mat. eapply (tri_new_mat S f); [exact R|lia|lia|].
  intros w1 a R1 Ha O1. apply tri_unbind. eapply (tri_get_localm S f _ _ _ _ _ _ HD); [exact R1|exact H|exact Ha|lia|lia| |].
  - intros w2 R2 O2 X. apply He; auto. congruence.
  - intros w2 b R2 V O2 P. apply tri_ret. apply Hk; auto. congruence.
Qed.
End New.

(** A program on the object at the very end: all three outcomes. *)
Lemma tri_lift_end {A} (p : prog S A) w (Q : A -> world -> Prop) (E D : world -> Prop) :
  (forall a o ev, run p (wO w) = ROk a o ev -> Q a (addEv (setO w o) ev)) ->
  (forall m o ev, run p (wO w) = RThrow m o ev -> E (addEv (setO w o) ev)) ->
  (forall why, run p (wO w) <> RUB why) ->
  tri (lift p) w Q E D.
Proof.
  intros H1 H2 H3. unfold tri, lift. destruct (run p (wO w)) as [a o ev|m o ev|why] eqn:R; eauto. now apply (H3 why).
Qed.

Variables (f : file) (la : Z) (asp : F) (i : Inp S) (d : vdat S).
Hypothesis Hf : wfile S f la asp i d.
Hypothesis Hd : wsane S la i d.

Ltac gone :=
  let w' := fresh "w" in let R' := fresh "R" in let O' := fresh "O" in let X := fresh "X" in let Cc := fresh "Cc" in
  intros w' R' O' X; split; [apply R'|]; intros ?; left; intros Cc; destruct X as [X|X]; [|contradiction]; revert X;
  apply Cc; unfold wneed;
  repeat match goal with Ha : asym i = _ |- _ => rewrite Ha | Ha : d_flux S d = _ |- _ => rewrite Ha end;
  first [apply in_or_app; left; cbn; tauto
        | apply in_or_app; right; apply in_or_app; left; cbn; tauto
        | apply in_or_app; right; apply in_or_app; right; cbn; tauto].
Ltac next w1 R1 O1 w2 R2 O2 := rewrite O1 in O2; clear w1 R1 O1; rename w2 into w1; rename R2 into R1; rename O2 into O1.

Theorem read_wout_spec (x : string) (w : world) (q0 : list verdict) vb :
  wFS w x = Some (Whole f) -> wf_world S w -> (q0 = [] -> wQ w = []) -> oI (wO w) I_verbose = Some vb ->
  (forall om v, staged S asp i (wO w) om -> wf_obj om -> vholds v i d -> forall why, run (init_from_vmec S v) om <> RUB why) ->
  tri (read_wout S x (d_flux S d)) w
    (fun _ w' => wFS w' = wFS w /\ wOpen w' = wOpen w /\ wNext w' = wNext w + 1 /\ wcomplete S f i d /\
       exists om v ev, staged S asp i (wO w) om /\ wf_obj om /\ vholds v i d /\ run (init_from_vmec S v) om = ROk tt (wO w') ev)
    (fun w' => wFS w' = wFS w /\ (q0 = [] -> ~ wcomplete S f i d \/
       (wOpen w' = wOpen w /\
        exists om v m ev, staged S asp i (wO w) om /\ wf_obj om /\ vholds v i d /\ run (init_from_vmec S v) om = RThrow m (wO w') ev)))
    (fun w' => wFS w' = wFS w /\ q0 <> []).
Proof.
  intros Hx W Hq Hv Hub. pose proof W as (Wo & Wp). destruct Hd as [Ela Emp Ent Hnz Hqq (Hns & Hmn & Hmnq)]. unfold read_wout.
  set (E := fun w' : world => wFS w' = wFS w /\ (q0 = [] -> ~ wcomplete S f i d \/ _)).
  set (D := fun w' : world => wFS w' = wFS w /\ q0 <> []).
  assert (HD : forall w', wFS w' = wFS w -> q0 <> [] -> D w') by (unfold D; auto).
  assert (HE : forall w', wFS w' = wFS w -> q0 <> [] -> E w').
  { unfold E. intros w' H1 H2. split; [exact H1|]. intros H3. contradiction. }
  unfold chatter. apply tri_bind, tri_lift. eapply wp_geti; [exact Hv|].
  eapply wp_mono with (Q := fun _ o _ => o = wO w); [|destruct (0 <? vb); cbn; auto].
  cbv beta. intros _ o ev ->.
  set (w0 := addEv (setO w (wO w)) ev).
  apply (tri_reader S x f w0 _ _ E D q0); auto.
  replace (wNext w0) with (wNext w) by reflexivity. replace (wOpen w0) with (wOpen w) by reflexivity.
  replace (wFS w0) with (wFS w) by reflexivity.
  set (R := rst S f (wNext w) (wOpen w) (wFS w) q0).
  intros w1 R1 O1. cbn in O1. clear w0.
  eapply (tri_get_local_int S f _ _ _ _ _ _ HD); [exact R1|apply Hf|gone|]. intros w2 R2 O2 Pla. next w1 R1 O1 w2 R2 O2.
  apply tri_val. eapply (tri_setb S f _ _ _ _ _ _); [exact R1|]. rewrite <- Ela. intros w2 R2 O2. next w1 R1 O1 w2 R2 O2.
  eapply (tri_get_local_int S f _ _ _ _ _ _ HD); [exact R1|apply Hf|gone|]. intros w2 R2 O2 Pns. next w1 R1 O1 w2 R2 O2.
  eapply (tri_get_int S f _ _ _ _ _ _ HD); [exact R1|apply Hf|gone|]. intros w2 R2 O2 Pnfp. next w1 R1 O1 w2 R2 O2.
  eapply (tri_get_int S f _ _ _ _ _ _ HD); [exact R1|apply Hf|gone|]. intros w2 R2 O2 Pmpol. next w1 R1 O1 w2 R2 O2.
  eapply (tri_get_int S f _ _ _ _ _ _ HD); [exact R1|apply Hf|gone|]. intros w2 R2 O2 Pntor. next w1 R1 O1 w2 R2 O2.
  eapply (tri_get_int S f _ _ _ _ _ _ HD); [exact R1|apply Hf|gone|]. intros w2 R2 O2 Pmnmax. next w1 R1 O1 w2 R2 O2.
  eapply (tri_get_int S f _ _ _ _ _ _ HD); [exact R1|apply Hf|gone|]. intros w2 R2 O2 Pmnmaxq. next w1 R1 O1 w2 R2 O2.
  eapply (tri_get_flt S f _ _ _ _ _ _ HD); [exact R1|apply Hf|gone|]. intros w2 R2 O2 Pasp. next w1 R1 O1 w2 R2 O2.
  apply tri_val.
  (* the fluxes *)
  apply tri_bind. eapply tri_mono with (E := E) (D := D)
    (Q := fun t w2 => R w2 /\ wO w2 = wO w1 /\
      (if d_flux S d then
         vec_is (fst (fst (fst t))) (d_ns S d) (d_phip S d) /\ vec_is (snd (fst (fst t))) (d_ns S d) (d_chi S d) /\
         vec_is (snd (fst t)) (d_ns S d) (d_pres S d) /\ vec_is (snd t) (d_ns S d) (d_phi S d) /\
         (forall y, In y ["chi"; "phipf"; "pres"; "phi"]%string -> present S f y)
       else asize (fst (fst (fst t))) = 0)); [|auto|auto|].
  2:{ assert (exists oo, wO w1 = oo) as (oo & O5) by eauto. rewrite O5. clear O1. destruct (d_flux S d) eqn:Hfl.
  - eapply (tri_get_vec_new f _ _ _ _ _ _ HD); [exact R1|eapply (wf_flux _ _ _ _ _ _ Hf Hfl); cbn; tauto|lia|gone|]. intros w2 achi R2 Vchi O2 Pchi. next w1 R1 O5 w2 R2 O2.
 eapply (tri_get_vec_new f _ _ _ _ _ _ HD); [exact R1|eapply (wf_flux _ _ _ _ _ _ Hf Hfl); cbn; tauto|lia|gone|]. intros w2 aphipf R2 Vphipf O2 Pphipf. next w1 R1 O5 w2 R2 O2.
 eapply (tri_get_vec_new f _ _ _ _ _ _ HD); [exact R1|eapply (wf_flux _ _ _ _ _ _ Hf Hfl); cbn; tauto|lia|gone|]. intros w2 apres R2 Vpres O2 Ppres. next w1 R1 O5 w2 R2 O2.
 eapply (tri_get_vec_new f _ _ _ _ _ _ HD); [exact R1|eapply (wf_flux _ _ _ _ _ _ Hf Hfl); cbn; tauto|lia|gone|]. intros w2 aphi R2 Vphi O2 Pphi. next w1 R1 O5 w2 R2 O2.
    apply tri_ret. cbn [fst snd]. splits; auto.
    intros y Hy. cbn in Hy. repeat (destruct Hy as [<-|Hy]; [assumption|]). contradiction.
  - apply tri_ret. cbn. splits; auto. }
  cbv beta. intros (((phip0, chi0), pres0), phi0) w2 (R2 & O2 & Hflux). cbn [fst snd] in Hflux. next w1 R1 O1 w2 R2 O2.
  eapply (tri_get_vec_new f _ _ _ _ _ _ HD); [exact R1|apply Hf|lia|gone|]. intros w2 aiotas R2 Viotas O2 Piotas. next w1 R1 O1 w2 R2 O2.
  eapply (tri_geti S f); [exact R1|rewrite O1; reflexivity|]. intros w2 R2 O2. next w1 R1 O1 w2 R2 O2.
  eapply (tri_resize_ints S f); [exact R1|rewrite O1; apply (wf_N _ Wo)|lia|]. intros w2 rxm R2 Hxm O2. next w1 R1 O1 w2 R2 O2.
  eapply (tri_resize_ints S f); [exact R1|rewrite O1; apply (wf_N _ Wo)|lia|]. intros w2 rxn R2 Hxn O2. next w1 R1 O1 w2 R2 O2.
  eapply (tri_get_ints S f _ _ _ _ _ _ HD); [exact R1|apply Hf|rewrite O1; assumption|lia|gone|]. intros w2 vxm R2 Vxm O2 Pxm. next w1 R1 O1 w2 R2 O2.
  eapply (tri_get_ints S f _ _ _ _ _ _ HD); [exact R1|apply Hf|rewrite O1; assumption|lia|gone|]. intros w2 vxn R2 Vxn O2 Pxn. next w1 R1 O1 w2 R2 O2.
  eapply (tri_geti S f); [exact R1|rewrite O1; reflexivity|]. intros w2 R2 O2. next w1 R1 O1 w2 R2 O2.
  eapply (tri_resize_ints S f); [exact R1|rewrite O1; apply (wf_N _ Wo)|lia|]. intros w2 rxmq R2 Hxmq O2. next w1 R1 O1 w2 R2 O2.
  eapply (tri_resize_ints S f); [exact R1|rewrite O1; apply (wf_N _ Wo)|lia|]. intros w2 rxnq R2 Hxnq O2. next w1 R1 O1 w2 R2 O2.
  eapply (tri_get_ints S f _ _ _ _ _ _ HD); [exact R1|apply Hf|rewrite O1; assumption|lia|gone|]. intros w2 vxmq R2 Vxmq O2 Pxmq. next w1 R1 O1 w2 R2 O2.
  eapply (tri_get_ints S f _ _ _ _ _ _ HD); [exact R1|apply Hf|rewrite O1; assumption|lia|gone|]. intros w2 vxnq R2 Vxnq O2 Pxnq. next w1 R1 O1 w2 R2 O2.
  eapply (tri_int S f); [exact R1|unfold INT_MIN, INT_MAX in *; lia|]. intros w2 R2 O2. next w1 R1 O1 w2 R2 O2.
  eapply (tri_getn S f) with (g := xmq i) (n := mnmaxq i); [exact R1|rewrite O1; assumption|lia|]. intros w2 R2 O2. next w1 R1 O1 w2 R2 O2.
  eapply (tri_seti S f); [exact R1|]. rewrite <- Emp. intros w2 R2 O2. next w1 R1 O1 w2 R2 O2.
  eapply (tri_getn S f) with (g := xnq i) (n := mnmaxq i); [exact R1|rewrite O1; assumption|lia|]. intros w2 R2 O2. next w1 R1 O1 w2 R2 O2.
  eapply (tri_geti S f); [exact R1|rewrite O1; reflexivity|]. intros w2 R2 O2. next w1 R1 O1 w2 R2 O2.
  eapply (tri_idiv S f); [exact R1|exact Hnz|rewrite <- Ent; exact Hqq|]. rewrite <- Ent. intros w2 R2 O2. next w1 R1 O1 w2 R2 O2.
  eapply (tri_seti S f); [exact R1|]. intros w2 R2 O2. next w1 R1 O1 w2 R2 O2.
  eapply (tri_get_mat_new f _ _ _ _ _ _ HD); [exact R1|eapply (wf_mat _ _ _ _ _ _ Hf); cbn; tauto|lia|lia|gone|]. intros w2 armnc R2 Vrmnc O2 Prmnc. next w1 R1 O1 w2 R2 O2.
  eapply (tri_get_mat_new f _ _ _ _ _ _ HD); [exact R1|eapply (wf_mat _ _ _ _ _ _ Hf); cbn; tauto|lia|lia|gone|]. intros w2 azmns R2 Vzmns O2 Pzmns. next w1 R1 O1 w2 R2 O2.
  eapply (tri_get_mat_new f _ _ _ _ _ _ HD); [exact R1|eapply (wf_mat _ _ _ _ _ _ Hf); cbn; tauto|lia|lia|gone|]. intros w2 almns R2 Vlmns O2 Plmns. next w1 R1 O1 w2 R2 O2.
  eapply (tri_get_mat_new f _ _ _ _ _ _ HD); [exact R1|eapply (wf_mat _ _ _ _ _ _ Hf); cbn; tauto|lia|lia|gone|]. intros w2 abmnc R2 Vbmnc O2 Pbmnc. next w1 R1 O1 w2 R2 O2.
  eapply (tri_get_mat_new f _ _ _ _ _ _ HD); [exact R1|eapply (wf_mat _ _ _ _ _ _ Hf); cbn; tauto|lia|lia|gone|]. intros w2 absubumnc R2 Vbsubumnc O2 Pbsubumnc. next w1 R1 O1 w2 R2 O2.
  eapply (tri_get_mat_new f _ _ _ _ _ _ HD); [exact R1|eapply (wf_mat _ _ _ _ _ _ Hf); cbn; tauto|lia|lia|gone|]. intros w2 absubvmnc R2 Vbsubvmnc O2 Pbsubvmnc. next w1 R1 O1 w2 R2 O2.
  eapply (tri_getb S f) with (z := asym i); [exact R1|rewrite O1; reflexivity|]. intros w2 R2 O2. next w1 R1 O1 w2 R2 O2.
  apply tri_bind. eapply tri_mono with (E := E) (D := D)
    (Q := fun t w2 => R w2 /\ wO w2 = wO w1 /\
      (asym i = true ->
         mat_is (fst (fst (fst t))) (mnmax i) (d_ns S d) (d_rmns S d) /\ mat_is (snd (fst (fst t))) (mnmax i) (d_ns S d) (d_zmnc S d) /\
         mat_is (snd (fst t)) (mnmax i) (d_ns S d) (d_lmnc S d) /\ mat_is (fst (fst (snd t))) (mnmaxq i) (d_ns S d) (d_bmns S d) /\
         mat_is (snd (fst (snd t))) (mnmaxq i) (d_ns S d) (d_bsubumns S d) /\
         mat_is (snd (snd t)) (mnmaxq i) (d_ns S d) (d_bsubvmns S d) /\
         (forall y, In y ["rmns"; "zmnc"; "lmnc"; "bmns"; "bsubumns"; "bsubvmns"]%string -> present S f y))); [|auto|auto|].
  2:{ assert (exists oo, wO w1 = oo) as (oo & O5) by eauto. rewrite O5. clear O1. destruct (asym i) eqn:Ha.
  - eapply (tri_get_mat_new f _ _ _ _ _ _ HD); [exact R1|eapply (wf_mata _ _ _ _ _ _ Hf Ha); cbn; tauto|lia|lia|gone|]. intros w2 armns R2 Vrmns O2 Prmns. next w1 R1 O5 w2 R2 O2.
 eapply (tri_get_mat_new f _ _ _ _ _ _ HD); [exact R1|eapply (wf_mata _ _ _ _ _ _ Hf Ha); cbn; tauto|lia|lia|gone|]. intros w2 azmnc R2 Vzmnc O2 Pzmnc. next w1 R1 O5 w2 R2 O2.
 eapply (tri_get_mat_new f _ _ _ _ _ _ HD); [exact R1|eapply (wf_mata _ _ _ _ _ _ Hf Ha); cbn; tauto|lia|lia|gone|]. intros w2 almnc R2 Vlmnc O2 Plmnc. next w1 R1 O5 w2 R2 O2.
 eapply (tri_get_mat_new f _ _ _ _ _ _ HD); [exact R1|eapply (wf_mata _ _ _ _ _ _ Hf Ha); cbn; tauto|lia|lia|gone|]. intros w2 abmns R2 Vbmns O2 Pbmns. next w1 R1 O5 w2 R2 O2.
 eapply (tri_get_mat_new f _ _ _ _ _ _ HD); [exact R1|eapply (wf_mata _ _ _ _ _ _ Hf Ha); cbn; tauto|lia|lia|gone|]. intros w2 absubumns R2 Vbsubumns O2 Pbsubumns. next w1 R1 O5 w2 R2 O2.
 eapply (tri_get_mat_new f _ _ _ _ _ _ HD); [exact R1|eapply (wf_mata _ _ _ _ _ _ Hf Ha); cbn; tauto|lia|lia|gone|]. intros w2 absubvmns R2 Vbsubvmns O2 Pbsubvmns. next w1 R1 O5 w2 R2 O2.
    apply tri_ret. cbn [fst snd]. splits; auto. intros _. splits; auto.
    intros y Hy. cbn in Hy. repeat (destruct Hy as [<-|Hy]; [assumption|]). contradiction.
  - apply tri_ret. cbn. splits; auto. discriminate. }
  cbv beta. intros (((rmns0, zmnc0), lmnc0), ((bmns0, bsubumns0), bsubvmns0)) w2 (R2 & O2 & Hasym). cbn [fst snd] in Hasym.
  next w1 R1 O1 w2 R2 O2.
  apply tri_bind. eapply (tri_rclose S f _ _ _ _ _ _ HD); [exact R1| |].
  { intros w2 R2 O2 X. apply HE; auto. apply R2. }
  intros w2 Op2 Fs2 Nx2 Qq2 O2. rewrite O1 in O2.
  assert (Hc : wcomplete S f i d).
  { unfold wcomplete, wneed. intros y Hy. apply in_app_or in Hy. destruct Hy as [Hy|Hy]; [|apply in_app_or in Hy; destruct Hy as [Hy|Hy]].
    - cbn in Hy. repeat (destruct Hy as [<-|Hy]; [assumption|]). contradiction.
    - destruct (asym i) eqn:Ha; [apply Hasym; auto|contradiction].
    - destruct (d_flux S d) eqn:Hfl; [apply Hflux; auto|contradiction]. }
  assert (Sg : staged S asp i (wO w) (wO w2)).
  { rewrite O2. constructor; try reflexivity; try assumption; intros g Hg; destruct g; try reflexivity;
      try contradiction; exfalso; apply Hg; cbn; tauto. }
  assert (Wm : wf_obj (wO w2)).
  { constructor.
    - intros g. destruct (in_dec nfield_eq_dec g [N_xm; N_xn; N_xm_nyq; N_xn_nyq]) as [Hg|Hg].
      + cbn in Hg. repeat (destruct Hg as [<-|Hg]; [split; [eapply vec_is_wf|eapply vec_cols]; apply Sg|]). contradiction.
      + rewrite (sg_N _ _ _ _ _ Sg) by auto. apply (wf_N _ Wo).
    - intros g. rewrite (sg_A _ _ _ _ _ Sg). apply (wf_A _ Wo). }
  match goal with |- tri (lift (init_from_vmec S ?v0)) _ _ _ _ => set (v := v0) end.
  assert (Hh : vholds v i d).
  { constructor; cbn; auto; try (intros Ha; apply Hasym; auto; fail).
    - intros Hfl. now rewrite Hfl in Hflux.
    - intros Hfl. rewrite Hfl in Hflux. apply Hflux.
    - intros Hfl. rewrite Hfl in Hflux. apply Hflux.
    - intros Hfl. rewrite Hfl in Hflux. apply Hflux.
    - intros Hfl. rewrite Hfl in Hflux. apply Hflux. }
  apply tri_lift_end.
  - intros [] o' ev' Er. cbn. splits; auto; try congruence. exists (wO w2), v, ev'. auto.
  - intros m o' ev' Er. unfold E. cbn. split; [congruence|]. intros _. right. split; [congruence|].
    exists (wO w2), v, m, ev'. auto.
  - intros why. apply Hub; auto.
Qed.
End Wout.

(** run(): what follows from the call having returned. *)
From Coq Require Import ZArith List String Bool Lia.
From Verif Require Import Scalar Prog Model Wp Func RunProof FuncExt Spec RunThms BadSurf Vmec Nc NcModel Py Frame FrameThms Ran VmecNeeds RunInit.
Import ListNotations.
Local Open Scope Z_scope.

Section Needs.
Context {S : Scalar}.
Notation obj := (obj S).
Notation prog := (prog S).

Definition surf_members : list mem := map MA [A_Boozer_I; A_Boozer_G; A_bmnc_b; A_rmnc_b; A_zmns_b; A_numns_b; A_gmnc_b; A_bmns_b; A_rmns_b; A_zmnc_b; A_numnc_b; A_gmns_b].
Lemma spares_angles' asy js jb n : spares surf_members (surface_angles S asy js jb n).
Proof.
  unfold surface_angles. sp.
  - unfold transp. sp.
  - unfold vcoords_rz. sp.
  - unfold vcoords_w. sp.
  - unfold harfun. sp; apply spares_vexpr; intros; sp.
Qed.
Lemma spares_surface' jb : spares surf_members (surface_solve S jb).
Proof.
  unfold surface_solve. sp; try apply spares_init_trig; try apply spares_angles'.
  - unfold half_weights, halve. sp.
  - apply spares_vexpr. intros; sp.
  - unfold accumulate. sp.
  - unfold check_accuracy, check_indices, at4, check_sum. sp. apply spares_init_trig.
Qed.
Lemma surf_in_run x : In x surf_members -> In x run_members.
Proof. cbn. intuition (subst; auto 60). Qed.
Lemma same_more L L' (a b : obj) : (forall x, In x L -> In x L') -> same L a b -> same L' a b.
Proof. intros H K x Hx. apply K. intros C. apply Hx, H, C. Qed.

Lemma ran_vexpr n v e (o : obj) a o' : ran (vexpr S n v e) o a o' -> arows a = arows v /\ acols a = acols v.
Proof.
  unfold vexpr. intros R. set (P := fun x : arr S => arows x = arows v /\ acols x = acols v).
  apply (ran_for_inv P _ _ _ _ _ _ _ R); [split; reflexivity|]. intros j s p s' p' _ R1 H1. repeat ran1. apply ran_vset in R1 as (-> & _ & _). exact H1.
Qed.
Lemma ran_har js jb n a b z (o : obj) h o' : ran (harfun S js jb n a b z) o h o' ->
  asize (hth S h) = asize z /\ exists x, znth (adata (oA o A_iota)) js = Some (Some x).
Proof.
  unfold harfun. intros R. repeat ran1. cbn [hth]. split; [|eauto].
  match goal with H : ran (vexpr _ _ _ (fun j => bind (getv A_theta_grid j) _)) _ _ _ |- _ => apply ran_vexpr in H as (J1 & J2) end.
  unfold asize. congruence.
Qed.

(** The modes of R, Z, lambda *)
Definition mode_ok (o : obj) (b : bool) (js nf mp nt k : Z) : Prop := exists m n,
  elemN o N_xm k = Some (Some m) /\ elemN o N_xn k = Some (Some n) /\ nf <> 0 /\ 0 <= m < mp /\ Z.abs n <= INT_MAX /\ 0 <= Z.quot (Z.abs n) nf <= nt /\
  (forall f, In f [A_rmnc; A_zmns; A_lmns] -> exists x, elem2 o f k js = Some (Some x)) /\
  (b = true -> forall f, In f [A_rmns; A_zmnc; A_lmnc] -> exists x, elem2 o f k js = Some (Some x)).
Lemma ran_vinc a i x (o : obj) y o' : ran (vinc a i x) o y o' -> o' = o.
Proof. unfold vinc. intros R. repeat ran1. apply ran_vget in R0 as (_ & ->). apply ran_vset in R as (_ & _ & ->). reflexivity. Qed.
Lemma ran_rz b js mn nf N st (o o1 : obj) st' o' : wf_obj o -> same run_members o o1 -> 1 <= N -> ran (vcoords_rz S b js mn nf N st) o1 st' o' ->
  forall k, 0 <= k < mn -> mode_ok o b js nf (acols (oA o1 A_cosm)) (acols (oA o1 A_cosn) - 1) k.
Proof.
  intros W K HN R k Hk. unfold vcoords_rz in R.
  eapply ran_for with (L := []) (j := k) in R; [|intros; sp|lia]. destruct R as (s1 & p1 & s2 & p2 & K1 & R).
  assert (K2 : same run_members o p1) by (eapply same_trans; [exact K|]; eapply same_more; [|exact K1]; intros ? []).
  apply ran_bind in R as (m & q1 & Rm & R). apply ran_getn in Rm as (Em & ->). rewrite (K2 (MN N_xm)) in Em by (cbn; intuition discriminate).
  apply ran_bind in R as (n & q1 & Rn & R). apply ran_getn in Rn as (En & ->). rewrite (K2 (MN N_xn)) in En by (cbn; intuition discriminate).
  apply ran_bind in R as (an & q1 & Ra & R). apply ran_int in Ra as (-> & -> & Han).
  apply ran_bind in R as (ab & q1 & Ra & R). apply ran_idiv in Ra as (Hnf & -> & ->).
  eapply ran_for with (L := []) (j := 0) in R; [|intros; sp|lia]. destruct R as (s3 & p3 & s4 & p4 & K3 & R).
  assert (K4 : same run_members o p3) by (eapply same_trans; [exact K2|]; eapply same_more; [|exact K3]; intros ? []).
  assert (C1 : oA p3 A_cosm = oA o1 A_cosm) by (rewrite (K3 (MA A_cosm)) by (intros []); apply (K1 (MA A_cosm)); intros []).
  assert (C2 : oA p3 A_cosn = oA o1 A_cosn) by (rewrite (K3 (MA A_cosn)) by (intros []); apply (K1 (MA A_cosn)); intros []).
  apply ran_bind in R as (cm & q1 & Rc & R). apply ran_getm in Rc as (_ & Hm & _ & ->). rewrite C1 in Hm.
  apply ran_bind in R as (cn & q1 & Rc & R). apply ran_getm in Rc as (_ & Hn & _ & ->). rewrite C2 in Hn.
  exists m, n. split; [now apply getn_inside in Em|]. split; [now apply getn_inside in En|]. split; [exact Hnf|]. split; [exact Hm|]. split; [lia|]. split; [lia|].
  assert (El : forall f x q, ~ In (MA f) run_members -> ran (getm f k js) p3 x q -> elem2 o f k js = Some (Some x) /\ q = p3).
  { intros f x q Hf. apply ran_getm_elem2. apply (K4 (MA f) Hf). }
  do 2 (let x := fresh in let q := fresh "q" in let Rc := fresh "Rc" in apply ran_bind in R as (x & q & Rc & R); apply ran_getm in Rc as (_ & _ & _ & ->)).
  do 1 (apply ran_bind in R as (x1 & q1 & Rc & R); apply El in Rc as (E1 & ->); [|cbn; intuition discriminate]).
  do 1 (apply ran_bind in R as (y1 & q1 & Rc & R); apply ran_vinc in Rc as ->).
  do 1 (apply ran_bind in R as (x2 & q1 & Rc & R); apply El in Rc as (E2 & ->); [|cbn; intuition discriminate]).
  do 1 (apply ran_bind in R as (y2 & q1 & Rc & R); apply ran_vinc in Rc as ->).
  do 1 (apply ran_bind in R as (x3 & q1 & Rc & R); apply El in Rc as (E3 & ->); [|cbn; intuition discriminate]).
  split. { intros f [<-|[<-|[<-|[]]]]; eauto. }
  intros ->.
  do 3 (let y := fresh "y" in apply ran_bind in R as (y & q1 & Rc & R); apply ran_vinc in Rc as ->). cbn [negb] in R.
  apply ran_bind in R as (x4 & q1 & Rc & R); apply El in Rc as (E4 & ->); [|cbn; intuition discriminate].
  apply ran_bind in R as (y4 & q1 & Rc & R); apply ran_vinc in Rc as ->.
  apply ran_bind in R as (x5 & q1 & Rc & R); apply El in Rc as (E5 & ->); [|cbn; intuition discriminate].
  apply ran_bind in R as (y5 & q1 & Rc & R); apply ran_vinc in Rc as ->.
  apply ran_bind in R as (x6 & q1 & Rc & R); apply El in Rc as (E6 & ->); [|cbn; intuition discriminate].
  intros f [<-|[<-|[<-|[]]]]; eauto.
Qed.
(** The Nyquist modes *)
Definition mode_nyq_ok (o : obj) (b : bool) (js nf mp nt k : Z) : Prop := exists m n,
  elemN o N_xm_nyq k = Some (Some m) /\ elemN o N_xn_nyq k = Some (Some n) /\ nf <> 0 /\ 0 <= m <= mp /\ Z.abs (Z.quot n nf) <= nt /\
  (exists x, elem2 o A_bmnc k js = Some (Some x)) /\ (b = true -> exists x, elem2 o A_bmns k js = Some (Some x)) /\
  (m <> 0 -> (exists x, elem2 o A_bsubumnc k js = Some (Some x)) /\ (b = true -> exists x, elem2 o A_bsubumns k js = Some (Some x))) /\
  (m = 0 -> (exists x, elem2 o A_bsubvmnc k js = Some (Some x)) /\ (n <> 0 -> b = true -> exists x, elem2 o A_bsubvmns k js = Some (Some x))) /\
  (m = 0 -> n = 0 -> exists x, elem2 o A_bsubumnc k js = Some (Some x)).
Lemma ran_w b js mn nf N ws wc st (o o1 : obj) st' o' : wf_obj o -> same run_members o o1 -> 1 <= N -> ran (vcoords_w S b js mn nf N ws wc st) o1 st' o' ->
  forall k, 0 <= k < mn -> exists m n, elemN o N_xm_nyq k = Some (Some m) /\ elemN o N_xn_nyq k = Some (Some n) /\ nf <> 0 /\
  0 <= m < acols (oA o1 A_cosm_nyq) /\ Z.abs (Z.quot n nf) < acols (oA o1 A_cosn_nyq) /\
  (exists x, elem2 o A_bmnc k js = Some (Some x)) /\ (b = true -> exists x, elem2 o A_bmns k js = Some (Some x)).
Proof.
  intros W K HN R k Hk. unfold vcoords_w in R.
  eapply ran_for with (L := []) (j := k) in R; [|intros; sp|lia]. destruct R as (s1 & p1 & s2 & p2 & K1 & R).
  assert (K2 : same run_members o p1) by (eapply same_trans; [exact K|]; eapply same_more; [|exact K1]; intros ? []).
  apply ran_bind in R as (m & q1 & Rm & R). apply ran_getn in Rm as (Em & ->). rewrite (K2 (MN N_xm_nyq)) in Em by (cbn; intuition discriminate).
  apply ran_bind in R as (n & q1 & Rn & R). apply ran_getn in Rn as (En & ->). rewrite (K2 (MN N_xn_nyq)) in En by (cbn; intuition discriminate).
  apply ran_bind in R as (ab & q1 & Ra & R). apply ran_idiv in Ra as (Hnf & -> & ->).
  apply ran_bind in R as (an & q1 & Ra & R). apply ran_int in Ra as (-> & -> & _).
  eapply ran_for with (L := []) (j := 0) in R; [|intros; sp|lia]. destruct R as (s3 & p3 & s4 & p4 & K3 & R).
  assert (K4 : same run_members o p3) by (eapply same_trans; [exact K2|]; eapply same_more; [|exact K3]; intros ? []).
  assert (C1 : oA p3 A_cosm_nyq = oA o1 A_cosm_nyq) by (rewrite (K3 (MA A_cosm_nyq)) by (intros []); apply (K1 (MA A_cosm_nyq)); intros []).
  assert (C2 : oA p3 A_cosn_nyq = oA o1 A_cosn_nyq) by (rewrite (K3 (MA A_cosn_nyq)) by (intros []); apply (K1 (MA A_cosn_nyq)); intros []).
  apply ran_bind in R as (cm & q1 & Rc & R). apply ran_getm in Rc as (_ & Hm & _ & ->). rewrite C1 in Hm.
  apply ran_bind in R as (cn & q1 & Rc & R). apply ran_getm in Rc as (_ & Hn & _ & ->). rewrite C2 in Hn.
  exists m, n. split; [now apply getn_inside in Em|]. split; [now apply getn_inside in En|]. split; [exact Hnf|]. split; [exact Hm|]. split; [lia|].
  assert (El : forall f x q, ~ In (MA f) run_members -> ran (getm f k js) p3 x q -> elem2 o f k js = Some (Some x) /\ q = p3).
  { intros f x q Hf. apply ran_getm_elem2. apply (K4 (MA f) Hf). }
  do 2 (let x := fresh in let q := fresh "q" in let Rc := fresh "Rc" in apply ran_bind in R as (x & q & Rc & R); apply ran_getm in Rc as (_ & _ & _ & ->)).
  apply ran_bind in R as (x0 & q1 & Rc & R). apply ran_vget in Rc as (_ & ->).
  do 3 (let y := fresh "y" in apply ran_bind in R as (y & q1 & Rc & R); apply ran_vinc in Rc as ->).
  apply ran_bind in R as (x1 & q1 & Rc & R). apply El in Rc as (E1 & ->); [|cbn; intuition discriminate].
  split; [eauto|]. intros ->. apply ran_bind in R as (y4 & q1 & Rc & R). apply ran_vinc in Rc as ->. cbn [negb] in R.
  apply ran_bind in R as (x5 & q1 & Rc & R). apply ran_vget in Rc as (_ & ->).
  do 3 (let y := fresh "y" in apply ran_bind in R as (y & q1 & Rc & R); apply ran_vinc in Rc as ->).
  apply ran_bind in R as (x6 & q1 & Rc & R). apply El in Rc as (E6 & ->); [|cbn; intuition discriminate]. eauto.
Qed.
Lemma ran_transp b js jb mn ws wc (o o1 : obj) st' o' : wf_obj o -> same run_members o o1 -> ran (transp S b js jb mn ws wc) o1 st' o' ->
  forall k, 0 <= k < mn -> exists m n, elemN o N_xm_nyq k = Some (Some m) /\ elemN o N_xn_nyq k = Some (Some n) /\
  (m <> 0 -> (exists x, elem2 o A_bsubumnc k js = Some (Some x)) /\ (b = true -> exists x, elem2 o A_bsubumns k js = Some (Some x))) /\
  (m = 0 -> (exists x, elem2 o A_bsubvmnc k js = Some (Some x)) /\ (n <> 0 -> b = true -> exists x, elem2 o A_bsubvmns k js = Some (Some x))) /\
  (m = 0 -> n = 0 -> exists x, elem2 o A_bsubumnc k js = Some (Some x)).
Proof.
  intros W K R k Hk. unfold transp in R.
  eapply ran_for with (L := surf_members) (j := k) in R; [|intros; sp|lia]. destruct R as ((s1 & s2) & p1 & s3 & p2 & K1 & R).
  assert (K2 : same run_members o p1) by (eapply same_trans; [exact K|]; eapply same_more; [|exact K1]; apply surf_in_run).
  apply ran_bind in R as (m & q1 & Rm & R). apply ran_getn in Rm as (Em & ->). rewrite (K2 (MN N_xm_nyq)) in Em by (cbn; intuition discriminate).
  apply ran_bind in R as (n & q1 & Rn & R). apply ran_getn in Rn as (En & ->). rewrite (K2 (MN N_xn_nyq)) in En by (cbn; intuition discriminate).
  exists m, n. split; [now apply getn_inside in Em|]. split; [now apply getn_inside in En|].
  assert (El : forall f x q, ~ In (MA f) run_members -> ran (getm f k js) p1 x q -> elem2 o f k js = Some (Some x) /\ q = p1).
  { intros f x q Hf. apply ran_getm_elem2. apply (K2 (MA f) Hf). }
  destruct (Z.eqb_spec m 0) as [->|Nm]; cbn [negb] in R.
  - split; [congruence|]. destruct (Z.eqb_spec n 0) as [->|Nn]; cbn [negb] in R.
    + apply ran_bind in R as (x1 & q1 & Rc & R). apply El in Rc as (E1 & ->); [|cbn; intuition discriminate].
      apply ran_bind in R as (u & q1 & Rc & R). 
      assert (K3 : same run_members o q1) by (eapply same_trans; [exact K2|]; eapply ran_same; [|exact Rc]; sp).
      apply ran_bind in R as (y1 & q2 & Rd & R). apply (ran_getm_elem2 o) in Rd as (E2 & ->); [|apply (K3 (MA A_bsubvmnc)); cbn; intuition discriminate].
      split; [intros _; split; [eauto|congruence]|eauto].
    + apply ran_bind in R as (x1 & q1 & Rc & R). apply El in Rc as (E1 & ->); [|cbn; intuition discriminate].
      split; [|congruence]. intros _. split; [eauto|]. intros _ ->.
      apply ran_bind in R as (u & q1 & Rc & R). apply ran_vset in Rc as (_ & _ & ->).
      apply ran_bind in R as (y1 & q1 & Rc & R). apply El in Rc as (E2 & ->); [|cbn; intuition discriminate]. eauto.
  - split; [|split; congruence]. intros _. apply ran_bind in R as (x1 & q1 & Rc & R). apply El in Rc as (E1 & ->); [|cbn; intuition discriminate].
    split; [eauto|]. intros ->. apply ran_bind in R as (u & q1 & Rc & R). apply ran_vset in Rc as (_ & _ & ->).
    apply ran_bind in R as (y1 & q1 & Rc & R). apply El in Rc as (E2 & ->); [|cbn; intuition discriminate]. eauto.
Qed.

(** One surface *)
Definition surface_ok (o : obj) (b : bool) (js nf mp nt mq nq mn mnq : Z) : Prop :=
  (exists x, elem o A_iota js = Some (Some x)) /\
  (forall k, 0 <= k < mn -> mode_ok o b js nf mp nt k) /\ (forall k, 0 <= k < mnq -> mode_nyq_ok o b js nf mq nq k).
Lemma getv_inside (o : obj) f i x : wf_obj o -> znth (adata (oA o f)) i = Some x -> elem o f i = Some x.
Proof.
  intros W E. pose proof (znth_lt _ _ _ E) as K. destruct (wf_A _ W f) as (_ & _ & L). unfold elem, asize.
  rewrite (proj2 (andb_true_iff _ _)); [exact E|]. rewrite Z.leb_le, Z.ltb_lt. lia.
Qed.
Lemma ran_surface jb (o o1 : obj) u o2 N mnb : wf_obj o -> same run_members o o1 -> oI o1 I_n_theta_zeta = Some N -> 1 <= N ->
  oI o1 I_mnboz = Some mnb -> ran (surface_solve S jb) o1 u o2 ->
  exists b mb nb nf mn mnq js, oB o B_asym = Some b /\ oI o I_mboz = Some mb /\ oI o I_nboz = Some nb /\ oI o I_nfp = Some nf /\
  oI o I_mnmax = Some mn /\ oI o I_mnmax_nyq = Some mnq /\ elemN o N_compute_surfs jb = Some (Some js) /\
  1 <= mb /\ 0 <= nb /\ (1 <= mnb -> nf <> 0) /\
  surface_ok o b js nf (acols (oA o1 A_cosm)) (acols (oA o1 A_cosn) - 1) (acols (oA o1 A_cosm_nyq) - 1) (acols (oA o1 A_cosn_nyq) - 1) mn mnq.
Proof.
  intros W K EN HN Emn R. unfold surface_solve in R.
  apply ran_bind in R as (js & q & Rc & R). apply ran_getn in Rc as (Ejs & ->). rewrite (K (MN N_compute_surfs)) in Ejs by (cbn; intuition discriminate).
  apply getn_inside in Ejs as (_ & Ejs); [|exact W].
  apply ran_bind in R as (vb & q & Rc & R). apply ran_geti in Rc as (_ & ->).
  apply ran_bind in R as (u1 & q & Rc & R). assert (q = o1) as -> by (revert Rc; destruct (1 <? vb); intros Rc; repeat ran1; reflexivity). clear Rc u1.
  apply ran_bind in R as (N' & q & Rc & R). apply ran_geti in Rc as (EN' & ->). assert (N' = N) as -> by congruence.
  apply ran_bind in R as (mb & q & Rc & R). apply ran_geti in Rc as (Emb & ->). rewrite (K (MI I_mboz)) in Emb by (cbn; intuition discriminate).
  apply ran_bind in R as (nb & q & Rc & R). apply ran_geti in Rc as (Enb & ->). rewrite (K (MI I_nboz)) in Enb by (cbn; intuition discriminate).
  apply ran_bind in R as (mb1 & q & Rc & R). apply ran_int in Rc as (-> & -> & _).
  apply ran_bind in R as (nb1 & q & Rc & R). apply ran_int in Rc as (-> & -> & _).
  apply ran_bind in R as (cosm & q & Rc & R). apply ran_zeros in Rc as (_ & Hmb & _ & Cm & ->).
  apply ran_bind in R as (cosn & q & Rc & R). apply ran_zeros in Rc as (_ & Hnb & _ & Cn & ->).
  apply ran_bind in R as (b & q & Rc & R). apply ran_getb in Rc as (Eb & ->). rewrite (K (MB B_asym)) in Eb by (cbn; intuition discriminate).
  apply ran_bind in R as (((ra & wb) & h) & o3 & Ra & R).
  assert (K3 : same surf_members o1 o3) by (eapply ran_same; [apply spares_angles'|exact Ra]).
  apply ran_bind in R as (nf & q & Rc & R). apply ran_geti in Rc as (Enf & ->).
  assert (K3' : same run_members o o3) by (eapply same_trans; [exact K|]; eapply same_more; [apply surf_in_run|exact K3]).
  rewrite (K3' (MI I_nfp)) in Enf by (cbn; intuition discriminate).
  apply ran_bind in R as (t & o4 & Rt & R). assert (K4 : same [] o3 o4) by (eapply ran_same; [apply spares_init_trig|exact Rt]).
  apply ran_trig in Rt as (_ & _ & Ht). cbn [tcosm tcosn] in Ht. rewrite Cm, Cn in Ht.
  (* the part that computes the angles *)
  unfold surface_angles in Ra.
  apply ran_bind in Ra as (mnq & q & Rc & Ra). apply ran_geti in Rc as (Emq & ->). rewrite (K (MI I_mnmax_nyq)) in Emq by (cbn; intuition discriminate).
  apply ran_bind in Ra as (ws & q & Rc & Ra). apply ran_zeros in Rc as (_ & _ & _ & _ & ->).
  apply ran_bind in Ra as (wc & q & Rc & Ra). assert (q = o1) as -> by (revert Rc; destruct b; intros Rc; [apply ran_zeros in Rc as (_ & _ & _ & _ & ->)|repeat ran1]; reflexivity). clear Rc.
  apply ran_bind in Ra as (zero & q & Rc & Ra). apply ran_zeros in Rc as (_ & _ & Zr & Zc & ->).
  apply ran_bind in Ra as ((ws' & wc') & o5 & Rt & Ra).
  assert (K5 : same surf_members o1 o5) by (eapply ran_same; [|exact Rt]; unfold transp; sp).
  assert (K5' : same run_members o o5) by (eapply same_trans; [exact K|]; eapply same_more; [apply surf_in_run|exact K5]).
  apply ran_bind in Ra as (mn & q & Rc & Ra). apply ran_geti in Rc as (Emn' & ->). rewrite (K5' (MI I_mnmax)) in Emn' by (cbn; intuition discriminate).
  apply ran_bind in Ra as (nf' & q & Rc & Ra). apply ran_geti in Rc as (Enf' & ->). rewrite (K5' (MI I_nfp)) in Enf' by (cbn; intuition discriminate).
  assert (nf' = nf) as -> by congruence.
  apply ran_bind in Ra as (a1 & o6 & Rrz & Ra). apply ran_bind in Ra as (w1 & o7 & Rw & Ra). apply ran_bind in Ra as (h1 & o8 & Rh & Ra).
  apply ran_ret in Ra as (Eq & ->). injection Eq as -> -> ->.
  assert (K6 : same [] o5 o6) by (eapply ran_same; [|exact Rrz]; unfold vcoords_rz; sp).
  assert (K6' : same run_members o o6) by (eapply same_trans; [exact K5'|]; eapply same_more; [|exact K6]; intros ? []).
  assert (K7 : same [] o6 o7) by (eapply ran_same; [|exact Rw]; unfold vcoords_w; sp).
  assert (K7' : same run_members o o7) by (eapply same_trans; [exact K6'|]; eapply same_more; [|exact K7]; intros ? []).
  pose proof (ran_transp _ _ _ _ _ _ _ _ _ _ W K Rt) as Ft. pose proof (ran_rz _ _ _ _ _ _ _ _ _ _ W K5' HN Rrz) as Frz.
  pose proof (ran_w _ _ _ _ _ _ _ _ _ _ _ _ W K6' HN Rw) as Fw. apply ran_har in Rh as (Hs & xi & Ei).
  assert (Hz : asize zero = N) by (unfold asize; rewrite Zr, Zc; lia). rewrite Hs, Hz in Ht. specialize (Ht HN).
  rewrite (K7' (MA A_iota)) in Ei by (cbn; intuition discriminate). apply getv_inside in Ei; [|exact W].
  assert (Cs : forall f, ~ In (MA f) surf_members -> oA o5 f = oA o1 f) by (intros f Hf; apply (K5 (MA f) Hf)).
  assert (Cs6 : forall f, ~ In (MA f) surf_members -> oA o6 f = oA o1 f).
  { intros f Hf. rewrite <- (Cs f Hf). apply (K6 (MA f)). intros []. }
  rewrite !Cs in Frz by (cbn; intuition discriminate).
  exists b, mb, nb, nf, mn, mnq, js. do 7 (split; [assumption|]). split; [lia|]. split; [lia|]. split.
  - (* the output modes divide by nfp *)
    intros H1. clear - R H1 Emn K3 K4.
    do 2 (apply ran_bind in R as (? & ? & Rc & R); apply ran_geti in Rc as (_ & ->)).
    apply ran_bind in R as (t' & o9 & Rc & R). assert (K9 : same [] o4 o9) by (eapply ran_same; [|exact Rc]; unfold half_weights, halve; sp). clear Rc.
    do 3 (apply ran_bind in R as (? & ? & Rc & R); apply ran_getv in Rc as (_ & ->)).
    apply ran_bind in R as (? & ? & Rc & R). apply ran_zeros in Rc as (_ & _ & _ & _ & ->).
    apply ran_bind in R as (? & o10 & Rc & R). assert (K10 : same [] o9 o10) by (eapply ran_same; [|exact Rc]; apply spares_vexpr; intros; sp). clear Rc.
    apply ran_bind in R as (? & ? & Rc & R). apply ran_geti in Rc as (_ & ->).
    apply ran_bind in R as (? & ? & Rc & R). match type of Rc with ran _ _ _ ?z => assert (z = o10) as -> by (revert Rc; destruct b; intros Rc; repeat ran1; reflexivity) end. clear Rc.
    apply ran_bind in R as (mnb' & ? & Rc & R). apply ran_geti in Rc as (E9 & ->).
    assert (mnb' = mnb). { rewrite (K10 (MI I_mnboz)), (K9 (MI I_mnboz)), (K4 (MI I_mnboz)), (K3 (MI I_mnboz)) in E9 by (cbn; intuition discriminate). congruence. }
    subst mnb'. apply ran_bind in R as (? & ? & Rc & _). unfold accumulate in Rc.
    eapply ran_for with (L := surf_members) (j := 0) in Rc; [|intros; sp|lia]. destruct Rc as (? & ? & ? & ? & _ & Rc).
    do 2 (apply ran_bind in Rc as (? & ? & ? & Rc)). apply ran_bind in Rc as (? & ? & Rd & _). apply ran_idiv in Rd. tauto.
  - split; [eauto|]. split; [exact Frz|]. intros k Hk. destruct (Ft k Hk) as (m & n & M1 & M2 & M3 & M4 & M5).
    destruct (Fw k Hk) as (m' & n' & M1' & M2' & M6 & M7 & M8 & M9 & M10). assert (m' = m) by congruence. assert (n' = n) by congruence. subst m' n'.
    rewrite !Cs6 in M7, M8 by (cbn; intuition discriminate). exists m, n. repeat (split; [first [assumption|lia]|]). assumption.
Qed.

(** All of run() *)
Theorem run_needs (o o' : obj) ev : wf_obj o -> run (bx_run S) o = ROk tt o' ev -> 1 <= asize (oN o N_compute_surfs) ->
  (forall mb nb, oI o I_mboz = Some mb -> oI o I_nboz = Some nb -> 0 <= mb \/ 0 <= nb) ->
  exists b mb nb nf mp nt mq nq nsn mn mnq,
    oB o B_asym = Some b /\ oI o I_mboz = Some mb /\ oI o I_nboz = Some nb /\ oI o I_nfp = Some nf /\ oI o I_mpol = Some mp /\
    oI o I_ntor = Some nt /\ oI o I_mpol_nyq = Some mq /\ oI o I_ntor_nyq = Some nq /\ oI o I_ns_in = Some nsn /\
    oI o I_mnmax = Some mn /\ oI o I_mnmax_nyq = Some mnq /\
    1 <= mb /\ 0 <= nb /\ nf <> 0 /\ 2 <= mp /\ 0 <= nt < INT_MAX /\ 1 <= mq < INT_MAX /\ 0 <= nq < INT_MAX /\ 0 <= nsn /\
    (let nze := if nb =? 0 then 1 else 2 * (2 * nb + 1) in
     (if b then 2 * (2 * mb + 1) else 2 * mb + 2) * nze <= INT_MAX /\ INT_MIN <= nf * nze <= INT_MAX) /\
    (forall j, 0 <= j < nsn -> exists x y, elem2 o A_bsubumnc 0 j = Some (Some x) /\ elem2 o A_bsubvmnc 0 j = Some (Some y)) /\
    forall jb, 0 <= jb < asize (oN o N_compute_surfs) -> exists js, elemN o N_compute_surfs jb = Some (Some js) /\
      (exists x, elem o A_s_in js = Some (Some x)) /\ surface_ok o b js nf mp nt mq nq mn mnq.
Proof.
  intros W E Hn Hneg. assert (R : ran (bx_run S) o tt o') by (exists ev; exact E). unfold bx_run in R.
  apply ran_bind in R as (u & o1 & Rh & R). apply ran_bind in R as (n & q & Rn & R). apply ran_sizen in Rn as (-> & ->).
  unfold run_head in Rh. apply ran_bind in Rh as (vb & q & Rv & Rh). apply ran_geti in Rv as (_ & ->).
  apply ran_bind in Rh as (u0 & o0 & Rl & Rh). assert (K0 : same [] o o0) by (eapply ran_same; [|exact Rl]; sp). clear Rl.
  apply ran_bind in Rh as (u1 & o2 & Ri & Rl). assert (K2 : same [] o2 o1) by (eapply ran_same; [|exact Rl]; sp). clear Rl.
  assert (K1 : same run_members o0 o2) by (eapply ran_same; [|exact Ri]; unfold init; sp; try apply spares_init_trig; try (unfold init_modes; sp); try (unfold init_grid; sp)).
  destruct (ran_init _ _ _ Ri) as (b & mb & nb & nf & mp & nt & mq & nq & nsn & E1 & E2 & E3 & E4 & E5 & E6 & E7 & E8 & E9 & G). cbv zeta in G.
  rewrite (K0 (MB B_asym)) in E1 by (intros []). rewrite (K0 (MI I_mboz)) in E2 by (intros []). rewrite (K0 (MI I_nboz)) in E3 by (intros []).
  rewrite (K0 (MI I_nfp)) in E4 by (intros []). rewrite (K0 (MI I_mpol)) in E5 by (intros []). rewrite (K0 (MI I_ntor)) in E6 by (intros []).
  rewrite (K0 (MI I_mpol_nyq)) in E7 by (intros []). rewrite (K0 (MI I_ntor_nyq)) in E8 by (intros []). rewrite (K0 (MI I_ns_in)) in E9 by (intros []).
  replace (Z.quot (2 * (2 * mb + 1)) 2) with (2 * mb + 1) in G by (rewrite (Z.mul_comm 2 (2 * mb + 1)), Z.quot_mul; lia).
  replace (2 * mb + 1 + 1) with (2 * mb + 2) in G by lia.
  set (nu := if b then 2 * (2 * mb + 1) else 2 * mb + 2) in *. set (nze := if nb =? 0 then 1 else 2 * (2 * nb + 1)) in *.
  destruct G as (G1 & G2 & G3 & G4 & G5 & G6 & G7 & G8 & G9 & Gi1 & Gi2 & Gi3 & G10 & G11 & G12).
  assert (Hb : 0 <= mb /\ 0 <= nb).
  { destruct (Hneg _ _ E2 E3) as [H|H].
    - split; [exact H|]. destruct (Z.lt_ge_cases nb 0) as [L|]; [exfalso|assumption].
      assert (nze < 0) by (unfold nze; destruct (Z.eqb_spec nb 0); lia). assert (1 <= nu) by (unfold nu; destruct b; lia). nia.
    - split; [|exact H]. destruct (Z.lt_ge_cases mb 0) as [L|]; [exfalso; nia|assumption]. }
  assert (HN : 1 <= nu * nze).
  { assert (1 <= nze) by (unfold nze; destruct (Z.eqb_spec nb 0); lia). assert (1 <= nu) by (unfold nu; destruct b; lia). nia. }
  specialize (G10 HN).
  assert (KK : same run_members o o1).
  { eapply same_trans; [eapply same_more; [|exact K0]; intros ? []|]. eapply same_trans; [exact K1|]. eapply same_more; [|exact K2]. intros ? []. }
  assert (Sz : oN o1 N_compute_surfs = oN o N_compute_surfs) by (apply (KK (MN N_compute_surfs)); cbn; intuition discriminate).
  rewrite Sz in R.
  assert (Surf : forall jb, 0 <= jb < asize (oN o N_compute_surfs) -> exists b mb nb nf mn mnq js,
     oB o B_asym = Some b /\ oI o I_mboz = Some mb /\ oI o I_nboz = Some nb /\ oI o I_nfp = Some nf /\
     oI o I_mnmax = Some mn /\ oI o I_mnmax_nyq = Some mnq /\ elemN o N_compute_surfs jb = Some (Some js) /\
     1 <= mb /\ 0 <= nb /\ (1 <= (2 * nb + 1) * (mb - 1) + nb + 1 -> nf <> 0) /\ surface_ok o b js nf mp nt mq nq mn mnq).
  { intros jb Hj. pose proof (ran_for surf_members _ _ _ _ _ _ _ (fun j _ => spares_surface' j) R jb ltac:(lia)) as (s1 & p1 & s2 & p2 & Kp & Rp).
    assert (Kp' : same run_members o p1) by (eapply same_trans; [exact KK|]; eapply same_more; [apply surf_in_run|exact Kp]).
    assert (Fp : forall f, ~ In (MA f) surf_members -> oA p1 f = oA o2 f).
    { intros f Hf. rewrite (Kp (MA f) Hf). apply (K2 (MA f)). intros []. }
    assert (X1 : oI p1 I_n_theta_zeta = Some (nu * nze)).
    { rewrite (Kp (MI I_n_theta_zeta)) by (cbn; intuition discriminate). rewrite (K2 (MI I_n_theta_zeta)) by (intros []). exact G3. }
    assert (X2 : oI p1 I_mnboz = Some ((2 * nb + 1) * (mb - 1) + nb + 1)).
    { rewrite (Kp (MI I_mnboz)) by (cbn; intuition discriminate). rewrite (K2 (MI I_mnboz)) by (intros []). exact G5. }
    destruct (ran_surface jb o p1 _ _ _ _ W Kp' X1 HN X2 Rp) as (b' & mb' & nb' & nf' & mn & mnq & js & F1 & F2 & F3 & F4 & F5 & F6 & F7 & F8 & F9 & F10 & F11).
    rewrite !Fp in F11 by (cbn; intuition discriminate). rewrite G6, G7, G8, G9 in F11.
    replace (nt + 1 - 1) with nt in F11 by lia. replace (mq + 1 - 1) with mq in F11 by lia. replace (nq + 1 - 1) with nq in F11 by lia.
    assert (mb' = mb) by congruence. assert (nb' = nb) by congruence. subst mb' nb'.
    exists b', mb, nb, nf', mn, mnq, js. repeat (split; [assumption|]). assumption. }
  destruct (Surf 0 ltac:(lia)) as (b0 & mb0 & nb0 & nf0 & mn & mnq & js0 & F1 & F2 & F3 & F4 & F5 & F6 & F7 & F8 & F9 & F10 & _).
  assert (b0 = b) by congruence. assert (mb0 = mb) by congruence. assert (nb0 = nb) by congruence. assert (nf0 = nf) by congruence. subst b0 mb0 nb0 nf0.
  exists b, mb, nb, nf, mp, nt, mq, nq, nsn, mn, mnq. do 11 (split; [assumption|]).
  split; [lia|]. split; [lia|]. split; [apply F10; nia|]. split; [lia|]. split; [lia|]. split; [lia|]. split; [lia|]. split; [lia|].
  split. { cbv zeta. fold nze. fold nu. split; [lia|assumption]. }
  split. { intros j Hj. destruct (G12 j Hj) as (x & y & X1 & X2). exists x, y. unfold elem2 in *.
    rewrite !(K0 (MA A_bsubumnc)) in X1 by (intros []). rewrite !(K0 (MA A_bsubvmnc)) in X2 by (intros []). split; [exact X1|exact X2]. }
  intros jb Hj. destruct (Surf jb Hj) as (b1 & mb1 & nb1 & nf1 & mn1 & mnq1 & js & H1 & H2 & H3 & H4 & H5 & H6 & H7 & H8 & H9 & H10 & H11).
  assert (b1 = b) by congruence. assert (nf1 = nf) by congruence. assert (mn1 = mn) by congruence. assert (mnq1 = mnq) by congruence. subst b1 nf1 mn1 mnq1.
  exists js. split; [exact H7|]. split; [|exact H11].
  pose proof (run_forces S o) as Fo. unfold forces in Fo. rewrite E in Fo. destruct Fo as (_ & Fo). destruct (Fo jb Hj) as (js' & x & Y1 & Y2).
  apply getn_inside in Y1 as (_ & Y1); [|exact W]. assert (js' = js) as -> by congruence. exists x. now apply getv_inside.
Qed.

End Needs.

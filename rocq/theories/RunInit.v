(** init(): what follows from the call having returned. *)
From Coq Require Import ZArith List String Bool Lia.
From Verif Require Import Scalar Prog Model Wp Func FuncExt Spec BadSurf Vmec Nc NcModel Py Frame FrameThms Ran VmecNeeds.
Import ListNotations.
Local Open Scope Z_scope.

Section Inv.
Context {S : Scalar}.
Notation obj := (obj S).
Notation prog := (prog S).
Lemma ran_for_inv {St} (P : St -> Prop) lo hi (st : St) body (o : obj) st' o' : ran (for_ lo hi st body) o st' o' -> P st ->
  (forall j s o1 s' o2, lo <= j < hi -> ran (body j s) o1 s' o2 -> P s -> P s') -> P st'.
Proof.
  unfold for_. remember (Z.to_nat (hi - lo)) as n eqn:En. revert lo st o En.
  induction n as [|n IH]; intros lo st o En R Hp Hb.
  - apply ran_ret in R as (-> & _). exact Hp.
  - cbn [for_from] in R. apply ran_bind in R as (s1 & o1 & R1 & R2). apply (IH (lo + 1) s1 o1 ltac:(lia) R2).
    + eapply Hb; [|exact R1|exact Hp]. lia.
    + intros. eapply Hb; eauto. lia.
Qed.
Definition dims (t : trig4 S) : Z * Z * Z * Z := (arows (tcosm S t), acols (tcosm S t), arows (tcosn S t), acols (tcosn S t)).
Definition dims' (t : trig4 S) : Z * Z * Z * Z := (arows (tsinm S t), acols (tsinm S t), arows (tsinn S t), acols (tsinn S t)).
Ltac msets := repeat match goal with
  | H : ran (mset _ _ _ _) _ _ _ |- _ => apply ran_mset in H as (? & ? & ? & ? & ->)
  | H : ran (vget _ _) _ _ _ |- _ => apply ran_vget in H as (? & ->)
  | H : ran (mget _ _ _) _ _ _ |- _ => apply ran_mget in H as (? & ? & ? & ->)
  end.
Lemma ran_rec n m cs (o : obj) cs' o' : ran (it_rec S n m cs) o cs' o' ->
  arows (fst cs') = arows (fst cs) /\ acols (fst cs') = acols (fst cs) /\ arows (snd cs') = arows (snd cs) /\ acols (snd cs') = acols (snd cs).
Proof.
  unfold it_rec. intros R. revert R. 
  set (P := fun x : arr S * arr S => arows (fst x) = arows (fst cs) /\ acols (fst x) = acols (fst cs) /\ arows (snd x) = arows (snd cs) /\ acols (snd x) = acols (snd cs)).
  intros R. apply (ran_for_inv P _ _ _ _ _ _ _ R); [unfold P; auto|]. intros j s o1 s' o2 _ R1 H1.
  apply (ran_for_inv P _ _ _ _ _ _ _ R1 H1). intros k (c & d) p1 s2 p2 _ R2 (H2 & H3 & H4 & H5). cbn [fst snd] in *.
  repeat ran1. msets. unfold P; cbn [fst snd] in *. intuition congruence.
Qed.
Lemma ran_trig th ze t m n nf (o : obj) t' o' : ran (init_trig S th ze t m n nf) o t' o' ->
  dims t' = dims t /\ dims' t' = dims' t /\ (1 <= asize th -> 2 <= acols (tcosm S t) /\ 1 <= acols (tcosn S t)).
Proof.
  unfold init_trig. intros R. apply ran_bind in R as (t1 & o1 & R1 & R). apply ran_bind in R as (t2 & o2 & R2 & R).
  apply ran_bind in R as (cs & o3 & R3 & R). apply ran_bind in R as (cn & o4 & R4 & R). apply ran_ret in R as (-> & ->).
  apply ran_rec in R3 as (A1 & A2 & A3 & A4). apply ran_rec in R4 as (B1 & B2 & B3 & B4). cbn [fst snd] in *.
  set (P := fun x : trig4 S => dims x = dims t /\ dims' x = dims' t).
  assert (P1 : P t1). { apply (ran_for_inv P _ _ _ _ _ _ _ R1); [split; auto|]. intros j s p s' p' _ Rb (Hp & Hp').
    repeat ran1. msets. unfold P, dims, dims' in *. cbn [tcosm tsinm tcosn tsinn]. split; congruence. }
  assert (P2 : P t2). { revert R2. unfold it_second. destruct (1 <=? n); intros R2; [|apply ran_ret in R2 as (-> & _); exact P1].
    apply (ran_for_inv P _ _ _ _ _ _ _ R2 P1). intros j s p s' p' _ Rb (Hp & Hp').
    repeat ran1. msets. unfold P, dims, dims' in *. cbn [tcosm tsinm tcosn tsinn]. split; congruence. }
  destruct P2 as (Q1 & Q2). split; [|split].
  - unfold dims in *. cbn [tcosm tsinm tcosn tsinn]. congruence.
  - unfold dims' in *. cbn [tcosm tsinm tcosn tsinn]. congruence.
  - intros Ht. unfold it_first in R1.
    (* the first iteration, with the tables as given *)
    unfold for_ in R1. destruct (Z.to_nat (asize th - 0)) eqn:E; [lia|]. cbn [for_from] in R1.
    apply ran_bind in R1 as (s1 & q1 & R0 & _). repeat ran1. msets. lia.
Qed.
Lemma ran_grid nu nzt dt dz (o : obj) r o' : ran (init_grid S nu nzt dt dz) o r o' -> asize (fst r) = nu * nzt /\ 0 <= nu * nzt.
Proof.
  unfold init_grid. intros R. repeat ran1. 
  repeat match goal with H : ran (zeros _ _ _) _ _ _ |- _ => apply ran_zeros in H as (? & ? & ? & ? & ->) end.
  match goal with H : ran (for_ _ _ _ _) _ ?st _ |- _ => rename H into L; destruct st as ((th & ze) & ix) end. repeat ran1. cbn [fst].
  set (P := fun x : arr S * arr S * Z => arows (fst (fst x)) = nu * nzt /\ acols (fst (fst x)) = 1).
  assert (Q : P (th, ze, ix)). { apply (ran_for_inv P _ _ _ _ _ _ _ L); [split; assumption|]. intros j s p s' p' _ Rx Hx.
    apply (ran_for_inv P _ _ _ _ _ _ _ Rx Hx). intros k ((aa & bb) & cc) q1 s2 q2 _ Ry Hy. repeat ran1.
    repeat match goal with H : ran (vset _ _ _) _ _ _ |- _ => apply ran_vset in H as (-> & _ & ->) end. exact Hy. }
  destruct Q as (Q1 & Q2). cbn [fst] in *. unfold asize. rewrite Q1, Q2. lia.
Qed.

Lemma ran_getm_elem2 (o o1 : obj) f k j x o' : oA o1 f = oA o f -> ran (getm f k j) o1 x o' -> elem2 o f k j = Some (Some x) /\ o' = o1.
Proof.
  intros E R. apply ran_getm in R as (H1 & H2 & H3 & ->). rewrite E in *. split; [|reflexivity]. unfold elem2.
  rewrite (proj2 (Z.leb_le 0 k)), (proj2 (Z.ltb_lt k _)), (proj2 (Z.leb_le 0 j)), (proj2 (Z.ltb_lt j _)) by lia. exact H3.
Qed.
Ltac spi := sp; try apply spares_init_trig; try (unfold init_modes; sp); try (unfold init_grid; sp).
(** One step: [R] is the run, [K] relates the object at the start to the one reached *)
Ltac stp R K x := let q := fresh "q" in let R0 := fresh "R0" in
  apply ran_bind in R as (x & q & R0 & R);
  first [ match type of R0 with ran (geti ?f) _ _ _ => apply ran_geti in R0 as (R0 & ->);
            try rewrite (K (MI f) ltac:(cbn; intuition discriminate)) in R0 end
        | match type of R0 with ran (getb ?f) _ _ _ => apply ran_getb in R0 as (R0 & ->);
            try rewrite (K (MB f) ltac:(cbn; intuition discriminate)) in R0 end
        | apply ran_int in R0 as (-> & -> & R0)
        | apply ran_idiv in R0 as (_ & -> & ->)
        | apply ran_zeros in R0 as (? & ? & ? & ? & ->)
        | match type of R0 with ran _ ?a _ ?b =>
            assert (same run_members a b) by (eapply ran_same; [|exact R0]; spi) ;
            let K' := fresh "K" in rename K into K'; assert (K : same run_members _ b) by (eapply same_trans; [exact K'|assumption]); clear K' end ].
(** What init() has stored by the time it returns, and what it has needed *)
Lemma ran_init (o : obj) u o1 : ran (init S) o u o1 -> exists b mb nb nf mp nt mq nq nsn,
  oB o B_asym = Some b /\ oI o I_mboz = Some mb /\ oI o I_nboz = Some nb /\ oI o I_nfp = Some nf /\ oI o I_mpol = Some mp /\
  oI o I_ntor = Some nt /\ oI o I_mpol_nyq = Some mq /\ oI o I_ntor_nyq = Some nq /\ oI o I_ns_in = Some nsn /\
  let nth := 2 * (2 * mb + 1) in let nze := if nb =? 0 then 1 else 2 * (2 * nb + 1) in
  let nu := if b then nth else Z.quot nth 2 + 1 in
  0 <= nu * nze <= INT_MAX /\ INT_MIN <= nf * nze <= INT_MAX /\
  oI o1 I_n_theta_zeta = Some (nu * nze) /\
  0 <= (2 * nb + 1) * (mb - 1) + nb + 1 /\ oI o1 I_mnboz = Some ((2 * nb + 1) * (mb - 1) + nb + 1) /\
  acols (oA o1 A_cosm) = mp /\ acols (oA o1 A_cosn) = nt + 1 /\ acols (oA o1 A_cosm_nyq) = mq + 1 /\ acols (oA o1 A_cosn_nyq) = nq + 1 /\
  nt < INT_MAX /\ mq < INT_MAX /\ nq < INT_MAX /\
  (1 <= nu * nze -> 2 <= mp /\ 0 <= nt /\ 1 <= mq /\ 0 <= nq) /\
  0 <= nsn /\ forall j, 0 <= j < nsn -> exists x y, elem2 o A_bsubumnc 0 j = Some (Some x) /\ elem2 o A_bsubvmnc 0 j = Some (Some y).
Proof.
  intros R. unfold init in R. assert (K : same run_members o o) by apply same_refl.
  stp R K mb. rename R0 into Emb. stp R K nb. rename R0 into Enb.
  do 3 (let x := fresh "x" in stp R K x). let x := fresh "x" in stp R K x. do 3 (let x := fresh "x" in stp R K x). let x := fresh "x" in stp R K x.
  do 2 (let x := fresh "x" in stp R K x). let x := fresh "x" in stp R K x. do 6 (let x := fresh "x" in stp R K x).
  (* mnboz *)
  apply ran_bind in R as (w & zz9 & Rm & R). pose proof Rm as Rm'. apply ran_seti in Rm'.
  assert (Kb : same run_members o zz9) by (eapply same_trans; [exact K|]; eapply ran_same; [|exact Rm]; spi). clear K. rename Kb into K.
  assert (Mn : oI zz9 I_mnboz = Some ((2 * nb + 1) * (mb - 1) + nb + 1)) by (rewrite Rm'; reflexivity).
  assert (Mn1 : oI o1 I_mnboz = oI zz9 I_mnboz).
  { assert (Y : same (MI I_nu3_b :: MI I_n_theta_zeta :: MI I_ns_b :: MN N_xm_b :: MN N_xn_b :: MF F_d_theta :: MF F_d_zeta ::
      map MA [A_theta_grid; A_zeta_grid; A_cosm; A_sinm; A_cosn; A_sinn; A_cosm_nyq; A_sinm_nyq; A_cosn_nyq; A_sinn_nyq; A_s_b; A_Boozer_I; A_Boozer_G;
        A_Boozer_I_all; A_Boozer_G_all; A_bmnc_b; A_rmnc_b; A_zmns_b; A_numns_b; A_gmnc_b; A_bmns_b; A_rmns_b; A_zmnc_b; A_numnc_b; A_gmns_b]) zz9 o1)
      by (eapply ran_same; [|exact R]; spi).
    apply (Y (MI I_mnboz)). cbn. intuition discriminate. }
  stp R K vb. let x := fresh "x" in stp R K x. stp R K nf.
  apply ran_bind in R as ((xmb & xnb) & zz10 & Rx & R).
  assert (Mpos : 0 <= (2 * nb + 1) * (mb - 1) + nb + 1).
  { unfold init_modes in Rx. apply ran_bind in Rx as (? & ? & Rz & _). apply ran_zeros in Rz. tauto. }
  assert (Kb : same run_members o zz10) by (eapply same_trans; [exact K|]; eapply ran_same; [|exact Rx]; spi). clear K. rename Kb into K.
  do 2 (let x := fresh "x" in stp R K x). stp R K b. let x := fresh "x" in stp R K x.
  set (nu := if b then 2 * (2 * mb + 1) else Z.quot (2 * (2 * mb + 1)) 2 + 1) in *.
  set (nze := if nb =? 0 then 1 else 2 * (2 * nb + 1)) in *.
  stp R K ntz.
  apply ran_bind in R as (w' & zz11 & Rn & R). pose proof Rn as Rn'. apply ran_seti in Rn'.
  assert (Kb : same run_members o zz11) by (eapply same_trans; [exact K|]; eapply ran_same; [|exact Rn]; spi). clear K. rename Kb into K.
  assert (Nn : oI zz11 I_n_theta_zeta = Some (nu * nze)) by (rewrite Rn'; reflexivity).
  assert (Nn1 : oI o1 I_n_theta_zeta = oI zz11 I_n_theta_zeta).
  { assert (Y : same (MI I_ns_b :: MF F_d_theta :: MF F_d_zeta ::
      map MA [A_theta_grid; A_zeta_grid; A_cosm; A_sinm; A_cosn; A_sinn; A_cosm_nyq; A_sinm_nyq; A_cosn_nyq; A_sinn_nyq; A_s_b; A_Boozer_I; A_Boozer_G;
        A_Boozer_I_all; A_Boozer_G_all; A_bmnc_b; A_rmnc_b; A_zmns_b; A_numns_b; A_gmnc_b; A_bmns_b; A_rmns_b; A_zmnc_b; A_numnc_b; A_gmns_b]) zz11 o1)
      by (eapply ran_same; [|exact R]; spi).
    apply (Y (MI I_n_theta_zeta)). cbn. intuition discriminate. }
  stp R K dth. let x := fresh "x" in stp R K x. stp R K dzt. let x := fresh "x" in stp R K x.
  apply ran_bind in R as ((thg & zeg) & zz12 & Rg & R). pose proof (ran_grid _ _ _ _ _ _ _ Rg) as (Gs & Gp). cbn [fst] in Gs.
  assert (Kb : same run_members o zz12) by (eapply same_trans; [exact K|]; eapply ran_same; [|exact Rg]; spi). clear K. rename Kb into K.
  do 2 (let x := fresh "x" in stp R K x). stp R K mp. stp R K nt. stp R K mq. stp R K nq.
  stp R K cosm. stp R K sinm. stp R K nt1. stp R K cosn. stp R K sinn. stp R K mq1. stp R K cosmq. stp R K sinmq. stp R K nq1. stp R K cosnq. stp R K sinnq. stp R K mp1.
  apply ran_bind in R as (t4 & zz13 & Rt & R). pose proof (ran_trig _ _ _ _ _ _ _ _ _ Rt) as (D1 & _ & D2).
  assert (Kb : same run_members o zz13) by (eapply same_trans; [exact K|]; eapply ran_same; [|exact Rt]; spi). clear K. rename Kb into K.
  unfold dims in D1. cbn [tcosm tsinm tcosn tsinn] in D1, D2. injection D1 as D1a D1b D1c D1d.
  do 4 (let x := fresh "x" in let q := fresh "q" in let R0 := fresh "Rset" in apply ran_bind in R as (x & q & R0 & R);
    match type of R0 with ran _ ?a _ ?b => assert (same run_members a b) by (eapply ran_same; [|exact R0]; spi);
      let K' := fresh "K" in rename K into K'; assert (K : same run_members o b) by (eapply same_trans; [exact K'|assumption]); clear K' end; apply ran_setarr in R0).
  match type of R with ran _ ?x _ _ => rename x into zz14 end.
  assert (Y1 : same (MI I_ns_b :: map MA [A_cosm_nyq; A_sinm_nyq; A_cosn_nyq; A_sinn_nyq; A_s_b; A_Boozer_I; A_Boozer_G;
        A_Boozer_I_all; A_Boozer_G_all; A_bmnc_b; A_rmnc_b; A_zmns_b; A_numns_b; A_gmnc_b; A_bmns_b; A_rmns_b; A_zmnc_b; A_numnc_b; A_gmns_b]) zz14 o1)
      by (eapply ran_same; [|exact R]; spi).
  assert (T1 : oA o1 A_cosm = tcosm S t4). { transitivity (oA zz14 A_cosm); [apply (Y1 (MA A_cosm)); cbn; intuition discriminate|subst; reflexivity]. }
  assert (T2 : oA o1 A_cosn = tcosn S t4). { transitivity (oA zz14 A_cosn); [apply (Y1 (MA A_cosn)); cbn; intuition discriminate|subst; reflexivity]. }
  clear Rset Rset0 Rset1 Rset2.
  apply ran_bind in R as (t5 & zz15 & Rt' & R). pose proof (ran_trig _ _ _ _ _ _ _ _ _ Rt') as (D3 & _ & D4).
  assert (Kb : same run_members o zz15) by (eapply same_trans; [exact K|]; eapply ran_same; [|exact Rt']; spi). clear K. rename Kb into K.
  unfold dims in D3. cbn [tcosm tsinm tcosn tsinn] in D3, D4. injection D3 as D3a D3b D3c D3d.
  do 4 (let x := fresh "x" in let q := fresh "q" in let R0 := fresh "Rset" in apply ran_bind in R as (x & q & R0 & R);
    match type of R0 with ran _ ?a _ ?b => assert (same run_members a b) by (eapply ran_same; [|exact R0]; spi);
      let K' := fresh "K" in rename K into K'; assert (K : same run_members o b) by (eapply same_trans; [exact K'|assumption]); clear K' end; apply ran_setarr in R0).
  match type of R with ran _ ?x _ _ => rename x into zz16 end.
  assert (Y2 : same (MI I_ns_b :: map MA [A_s_b; A_Boozer_I; A_Boozer_G;
        A_Boozer_I_all; A_Boozer_G_all; A_bmnc_b; A_rmnc_b; A_zmns_b; A_numns_b; A_gmnc_b; A_bmns_b; A_rmns_b; A_zmnc_b; A_numnc_b; A_gmns_b]) zz16 o1)
      by (eapply ran_same; [|exact R]; spi).
  assert (T3 : oA o1 A_cosm_nyq = tcosm S t5). { transitivity (oA zz16 A_cosm_nyq); [apply (Y2 (MA A_cosm_nyq)); cbn; intuition discriminate|subst; reflexivity]. }
  assert (T4 : oA o1 A_cosn_nyq = tcosn S t5). { transitivity (oA zz16 A_cosn_nyq); [apply (Y2 (MA A_cosn_nyq)); cbn; intuition discriminate|subst; reflexivity]. }
  clear Rset Rset0 Rset1 Rset2.
  stp R K nsb. let x := fresh "x" in stp R K x. stp R K sb. stp R K sb2. stp R K sb3. let x := fresh "x" in stp R K x.
  stp R K nsn. stp R K zz. do 2 (let x := fresh "x" in stp R K x). stp R K zi.
  apply ran_bind in R as (iaga & zz17 & Rl & R). 
  exists b, mb, nb, nf, mp, nt, mq, nq, nsn. do 9 (split; [assumption|]). cbv zeta. fold nu nze.
  split; [lia|]. split; [assumption|]. split; [congruence|]. split; [assumption|]. split; [congruence|].
  rewrite T1, T2, T3, T4. do 4 (split; [congruence|]). do 3 (split; [lia|]).
  split. { intros Hg. destruct D2 as (D2a & D2b); [congruence|]. destruct D4 as (D4a & D4b); [congruence|]. lia. }
  split; [lia|]. intros j Hj.
  eapply ran_for with (L := []) (j := j) in Rl; [|intros ? []; sp|lia]. destruct Rl as ((s1 & s2) & p1 & s3 & p2 & Kl & Rl).
  assert (Kl' : same run_members o p1) by (eapply same_trans; [exact K|]; intros z Hz; apply Kl; intros []). repeat ran1.
  repeat match goal with H : ran (getm ?f _ _) _ _ _ |- _ =>
    apply (ran_getm_elem2 o) in H as (? & ->); [|apply (Kl' (MA f)); cbn; intuition discriminate]
  | H : ran (vset _ _ _) _ _ _ |- _ => apply ran_vset in H as (_ & _ & ->) end. eauto.
Qed.
End Inv.

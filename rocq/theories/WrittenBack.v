(** Property C79: what comes back when a written file is read. *)
From Coq Require Import ZArith List String Bool Lia.
From Verif Require Import Scalar Prog Model Wp Func FuncExt Spec Vmec Nc NcModel NcSpec NcVoc NcThms NcThms4 ReadAll Stored Written WrittenThm.
Import ListNotations.
Local Open Scope Z_scope.

Section Back.
Context {S : Scalar}.
Notation obj := (obj S).
Notation world := (world S).

Lemma holds_numbers (f : ncfile S) y ds l l' : holds f y ds (VDbl l) -> numbers f y l' -> l' = l.
Proof. intros (u & U & _ & V) (u' & U' & V'). rewrite U in U'. injection U' as <-. now rewrite V in V'. Qed.
Lemma holds_integers (f : ncfile S) y ds l l' : holds f y ds (VInt l) -> integers f y l' -> l' = l.
Proof. intros (u & U & _ & V) (u' & U' & V'). rewrite U in U'. injection U' as <-. now rewrite V in V'. Qed.
Lemma begins_all {T} (a : array T) r c l : shaped a r c -> Z.of_nat (List.length l) = r * c -> begins l a -> adata a = l.
Proof.
  intros (_ & _ & L) Ll (t & E). rewrite E in *. rewrite app_length in L. destruct t; [now rewrite app_nil_r|]. cbn in L. lia.
Qed.
Lemma prefix_back {T} (a b : array T) n r c l : prefix a n l -> shaped b r c -> n = r * c -> begins l b -> prefix a n (adata b).
Proof. intros (L & Hb) Sb -> Bb. rewrite (begins_all b r c l Sb L Bb). split; assumption. Qed.

(** What an object that reads the file has of the object that was written *)
Definition returned (o o' : obj) : Prop := exists mn ns nb asy,
  oI o I_mnboz = Some mn /\ oI o I_ns_in = Some ns /\ oI o I_ns_b = Some nb /\ oB o B_asym = Some asy /\ oB o' B_asym = Some asy /\
  (forall k, In k [I_nfp; I_mboz; I_nboz; I_mnboz; I_ns_in; I_ns_b] -> oI o' k = oI o k) /\
  adata (oN o' N_compute_surfs) = adata (oN o N_compute_surfs) /\
  (forall k, In k [N_xm_b; N_xn_b] -> prefix (oN o k) mn (adata (oN o' k))) /\
  (forall k, In k [A_iota; A_Boozer_G_all; A_Boozer_I_all] -> prefix (oA o k) ns (adata (oA o' k))) /\
  (asize (oA o A_phip) = 0 -> forall k, In k [A_phi; A_phip; A_pres] -> adata (oA o' k) = zrepeat zero (ns + 1)) /\
  (asize (oA o A_phip) <> 0 -> (forall k, In k [A_phi; A_pres] -> prefix (oA o k) (ns + 1) (adata (oA o' k))) /\
     exists c l, prefix (oA o A_phip) (ns + 1) (c :: l) /\ adata (oA o' A_phip) = zero :: l) /\
  (forall k, In k [A_bmnc_b; A_rmnc_b; A_zmns_b; A_gmnc_b] -> prefix (oA o k) (nb * mn) (adata (oA o' k))) /\
  (exists l, prefix (oA o A_numns_b) (nb * mn) l /\ adata (oA o' A_numns_b) = map (option_map (fun y => fneg S (fneg S y))) l) /\
  (asy = true -> (forall k, In k [A_bmns_b; A_rmns_b; A_zmnc_b; A_gmns_b] -> prefix (oA o k) (nb * mn) (adata (oA o' k))) /\
     exists l, prefix (oA o A_numnc_b) (nb * mn) l /\ adata (oA o' A_numnc_b) = map (option_map (fun y => fneg S (fneg S y))) l) /\
  (asy = false -> forall k, In k [A_bmns_b; A_rmns_b; A_zmnc_b; A_numnc_b; A_gmns_b] -> adata (oA o' k) = []).

Lemma shaped_nil {T} (a : array T) : shaped a 0 0 -> adata a = [].
Proof. intros (_ & _ & L). destruct (adata a); [reflexivity|cbn in L; lia]. Qed.
Lemma shaped_n {T} (a : array T) n : shaped a n 1 -> Z.of_nat (List.length (adata a)) = n.
Proof. intros (_ & _ & L). lia. Qed.
Lemma plus2_back (l : list (option Z)) : map (option_map (fun x => x - 2)) (map (option_map (fun z => z + 2)) l) = l.
Proof.
  rewrite map_map. rewrite <- (map_id l) at 2. apply map_ext. intros [z|]; cbn; [|reflexivity]. f_equal. lia.
Qed.
Lemma neg_back (l : list (option (F S))) : map (option_map (fneg S)) (map (option_map (fneg S)) l) = map (option_map (fun y => fneg S (fneg S y))) l.
Proof. rewrite map_map. apply map_ext. now intros [z|]. Qed.

Lemma written_back version f (o o' : obj) : wf_obj o -> written version o f -> booz_claim f o' -> returned o o'.
Proof.
  intros Hwf (mn & ns & nb & asy & I1 & I2 & I3 & B1 & P1 & P2 & P3 & D1 & D2 & D3 & D4 & D5 & V1 & V2 & V3 & V4 & V5 & V6 & V7 & V8 & V9 & V10 & V11 & V12 & V13 & V14 & V15 & V16)
    (mn' & ns' & nb' & asy' & I1' & I2' & I3' & B1' & R1 & E1 & E2 & R2 & R3 & R4 & R5 & R6 & R7 & R8 & R9 & R10 & R11 & _).
  assert (Ens : ns' = ns) by (unfold dim in D1, E1; rewrite D1 in E1; injection E1; lia). subst ns'.
  assert (Enb : nb' = nb) by (unfold dim in D4, E2; rewrite D4 in E2; injection E2; lia). subst nb'.
  assert (Sc : forall y k, In (y, k) booz_scalars -> oI o' k = oI o k).
  { intros y k Hin. destruct (R2 y k Hin) as (l & L1 & L2). rewrite (holds_integers f y _ _ _ (V4 y k Hin) L1) in L2.
    destruct L2 as [L2|L2]; [discriminate L2|]. congruence. }
  assert (Emn : mn' = mn). { pose proof (Sc "mnboz_b"%string I_mnboz ltac:(cbn; tauto)) as E. congruence. } subst mn'.
  assert (Eas : asy' = asy).
  { destruct R1 as (z & Z1 & Z2). apply (holds_integers f _ _ _ _ V2) in Z1. injection Z1 as ->. destruct asy, asy'; auto; exfalso; intuition (discriminate || lia). }
  subst asy'.
  assert (NN : forall y k ds l n, prefix (oN o k) n l -> holds f y ds (VInt l) -> (shaped (oN o' k) n 1 /\ exists l, integers f y l /\ begins l (oN o' k)) -> prefix (oN o k) n (adata (oN o' k))).
  { intros y k ds l n Pl Hh (Sh & l' & L1 & L2). rewrite (holds_integers f y ds l l' Hh L1) in L2. eapply prefix_back; [exact Pl|exact Sh|lia|exact L2]. }
  assert (AA : forall y k ds l n r c, prefix (oA o k) n l -> holds f y ds (VDbl l) -> n = r * c -> (shaped (oA o' k) r c /\ exists l, numbers f y l /\ begins l (oA o' k)) -> prefix (oA o k) n (adata (oA o' k))).
  { intros y k ds l n r c Pl Hh En (Sh & l' & L1 & L2). rewrite (holds_numbers f y ds l l' Hh L1) in L2. eapply prefix_back; [exact Pl|exact Sh|exact En|exact L2]. }
  assert (MM : forall y k ds l n r c, prefix (oA o k) n l -> holds f y ds (VDbl (map (option_map (fneg S)) l)) -> n = r * c ->
    (shaped (oA o' k) r c /\ exists l, numbers f y l /\ begins (map (option_map (fneg S)) l) (oA o' k)) ->
    exists l, prefix (oA o k) n l /\ adata (oA o' k) = map (option_map (fun y => fneg S (fneg S y))) l).
  { intros y k ds l n r c Pl Hh En (Sh & l' & L1 & L2). rewrite (holds_numbers f y ds _ l' Hh L1), neg_back in L2. exists l. split; [exact Pl|].
    eapply begins_all; [exact Sh| |exact L2]. rewrite map_length, <- En. apply Pl. }
  exists mn, ns, nb, asy. do 5 (split; [assumption|]). split; [|split; [|split; [|split; [|split; [|split; [|split; [|split; [|split]]]]]]]].
  - intros k Hk. cbn in Hk. repeat destruct Hk as [<-|Hk]; try contradiction; try congruence; (eapply Sc; cbn; eauto 9).
  - destruct R4 as (Sh & l & L1 & L2). rewrite (holds_integers f _ _ _ _ V7 L1), plus2_back in L2. eapply begins_all; [exact Sh| |exact L2].
    pose proof (proj1 (wf_N o Hwf N_compute_surfs)) as (_ & _ & W). rewrite W. fold (asize (oN o N_compute_surfs)). lia.
  - intros k Hk. cbn in Hk. destruct Hk as [<-|[<-|[]]]; [destruct (V9 "ixm_b"%string N_xm_b) as (l & Q1 & Q2)|destruct (V9 "ixn_b"%string N_xn_b) as (l & Q1 & Q2)];
      try (cbn; tauto); eapply NN; [exact Q1|exact Q2|apply R3; cbn; tauto|exact Q1|exact Q2|apply R3; cbn; tauto].
  - assert (RR : forall y k, In (y, k) radial -> In (y, k) booz_radial -> prefix (oA o k) ns (adata (oA o' k))).
    { intros y k H1 H2. destruct (V10 y k H1) as (l & Q1 & Q2). destruct (R7 y k H2) as (Sh & l' & L1 & L2). rewrite (holds_numbers f y _ _ l' Q2 L1) in L2. cbn in L2. now rewrite <- L2. }
    intros k Hk. cbn in Hk. destruct Hk as [<-|[<-|[<-|[]]]]; eapply RR; cbn; eauto 9.
  - intros H0 k Hk. specialize (V11 H0). assert (ZZ : forall y, In (y, k) booz_profiles -> In y ["beta_b"; "phip_b"; "chi_b"; "pres_b"; "phi_b"]%string -> adata (oA o' k) = zrepeat zero (ns + 1)).
    { intros y H1 H2. destruct (R5 y k H1) as (Sh & l & L1 & L2). rewrite (holds_numbers f y _ _ l (V11 y H2) L1) in L2.
      eapply begins_all; [exact Sh| |exact L2]. rewrite zrepeat_len; lia. }
    cbn in Hk. destruct Hk as [<-|[<-|[<-|[]]]]; eapply ZZ; cbn; eauto 9.
  - intros H0. destruct (V12 H0) as (_ & (c & l & Q1 & Q2) & Q3). split.
    + intros k Hk. assert (FF : forall y, In (y, k) booz_profiles -> In (y, k) fluxes -> prefix (oA o k) (ns + 1) (adata (oA o' k))).
      { intros y H1 H2. destruct (Q3 y k H2) as (l0 & W1 & W2). eapply AA; [exact W1|exact W2| |apply R5; exact H1]. lia. }
      cbn in Hk. destruct Hk as [<-|[<-|[]]]; eapply FF; cbn; eauto 9.
    + exists c, l. split; [exact Q1|]. destruct (R5 "phip_b"%string A_phip) as (Sh & l' & L1 & L2); [cbn; tauto|].
      rewrite (holds_numbers f _ _ _ l' Q2 L1) in L2. eapply begins_all; [exact Sh| |exact L2]. destruct Q1 as (Q1 & _). cbn [List.length] in *. lia.
  - intros k Hk. assert (FF : forall y, In (y, k) booz_matrices -> prefix (oA o k) (nb * mn) (adata (oA o' k))).
    { intros y H1. destruct (V13 y k H1) as (l & W1 & W2). eapply AA; [exact W1|exact W2|apply Z.mul_comm|apply R8; exact H1]. }
    cbn in Hk. destruct Hk as [<-|[<-|[<-|[<-|[]]]]]; eapply FF; cbn; eauto 9.
  - destruct V14 as (l & W1 & W2). eapply MM; [exact W1|exact W2|apply Z.mul_comm|exact R9].
  - intros Ea. destruct (V15 Ea) as (W & l & W1 & W2). destruct (R10 Ea) as (X & X1). split.
    + intros k Hk. assert (FF : forall y, In (y, k) booz_matrices_asym -> prefix (oA o k) (nb * mn) (adata (oA o' k))).
      { intros y H1. destruct (W y k H1) as (l0 & W3 & W4). eapply AA; [exact W3|exact W4|apply Z.mul_comm|apply X; exact H1]. }
      cbn in Hk. destruct Hk as [<-|[<-|[<-|[<-|[]]]]]; eapply FF; cbn; eauto 9.
    + eapply MM; [exact W1|exact W2|apply Z.mul_comm|exact X1].
  - intros Ea k Hk. apply shaped_nil. now apply R11.
Qed.

Theorem comes_back version x (w w1 v v1 : world) : wf_obj (wO w) -> wf_obj (wO v) ->
  write_boozmn S version x w = IOk tt w1 -> wFS v x = wFS w1 x -> read_boozmn S x v = IOk tt v1 -> returned (wO w) (wO v1).
Proof.
  intros Hw Hv E Ef E'. destruct (boozmn_written version x w w1 Hw E) as (f & F1 & Wr). destruct (boozmn_stores x v v1 Hv E') as (g & G1 & Cl).
  rewrite Ef, F1 in G1. injection G1 as <-. exact (written_back version f _ _ Hw Wr Cl).
Qed.
End Back.

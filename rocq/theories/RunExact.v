(** run(): exactly when it returns. *)
From Coq Require Import ZArith List String Bool Lia.
From Verif Require Import Scalar Prog Model Wp Func RunProof FuncExt Spec RunThms BadSurf Vmec VmecSpec VmecRun VmecThms Nc NcModel Py Frame FrameThms Ran VmecNeeds RunInit RunNeeds.
Import ListNotations.
Local Open Scope Z_scope.

Section Needs.
Context {S : Scalar}.
Notation obj := (obj S).
Notation prog := (prog S).

(** Exactly when run() returns *)
Definition int_sized (i : Inp S) : Prop :=
  nfp i <= INT_MAX /\ mpol i <= INT_MAX /\ mnmax i <= INT_MAX /\ mnmaxq i <= INT_MAX /\ nsin i <= INT_MAX /\ nsurf i <= INT_MAX /\
  forall k, 0 <= k < mnmaxq i -> Z.abs (xnq i k) <= INT_MAX.
Lemma elemN_vec (o : obj) f n g k x : vec_is (oN o f) n g -> elemN o f k = Some (Some x) -> 0 <= k < n /\ x = g k.
Proof.
  intros (A & B & _ & V). unfold elemN, asize. rewrite A, B, Z.mul_1_r. destruct (_ && _) eqn:E; [|discriminate].
  apply andb_true_iff in E. rewrite Z.leb_le, Z.ltb_lt in E. rewrite V by lia. intros H. injection H as <-. auto.
Qed.
Lemma kn_abs nf n : 1 <= nf -> kn nf n = Z.quot (Z.abs n) nf.
Proof. intros H. unfold kn. rewrite <- Z.quot_abs by lia. now rewrite (Z.abs_eq nf) by lia. Qed.
Theorem run_exactly (o : obj) i : repr o i -> wf_obj o -> int_sized i -> 1 <= nfp i -> 1 <= nsurf i -> (0 <= mboz i \/ 0 <= nboz i) ->
  (asym i = true \/ ntheta i * nzeta i <= INT_MAX) -> ((exists o' ev, run_ok o o' ev) <-> ok_inp i).
Proof.
  intros Rp W (I1 & I2 & I3 & I4 & I5 & I6 & I7) Hf Hs Hneg Hg. split.
  - intros (o' & ev & E).
    assert (As : asize (oN o N_compute_surfs) = nsurf i) by (destruct (r_surf _ _ _ Rp) as (A & B & _); unfold asize; rewrite A, B; lia).
    destruct (run_needs o o' ev W E) as (b & mb & nb & nf & mp & nt & mq & nq & nsn & mn & mnq & E1 & E2 & E3 & E4 & E5 & E6 & E7 & E8 & E9 & E10 & E11 & N).
    { lia. } { intros mb nb M1 M2. rewrite (r_mboz _ _ _ Rp) in M1. rewrite (r_nboz _ _ _ Rp) in M2. injection M1 as <-. injection M2 as <-. exact Hneg. }
    rewrite (r_asym _ _ _ Rp) in E1. rewrite (r_mboz _ _ _ Rp) in E2. rewrite (r_nboz _ _ _ Rp) in E3. rewrite (r_nfp _ _ _ Rp) in E4.
    rewrite (r_mpol _ _ _ Rp) in E5. rewrite (r_ntor _ _ _ Rp) in E6. rewrite (r_mpolq _ _ _ Rp) in E7. rewrite (r_ntorq _ _ _ Rp) in E8.
    rewrite (r_nsin _ _ _ Rp) in E9. rewrite (r_mnmax _ _ _ Rp) in E10. rewrite (r_mnmaxq _ _ _ Rp) in E11.
    injection E1 as <-. injection E2 as <-. injection E3 as <-. injection E4 as <-. injection E5 as <-. injection E6 as <-. injection E7 as <-.
    injection E8 as <-. injection E9 as <-. injection E10 as <-. injection E11 as <-.
    destruct N as (N1 & N2 & N3 & N4 & N5 & N6 & N7 & N8 & (N9 & N10) & N11 & N12). fold (nzeta i) in N9, N10.
    assert (Surf : forall k, 0 <= k < nsurf i -> 0 <= surf i k < nsin i /\ surface_ok o (asym i) (surf i k) (nfp i) (mpol i) (ntor i) (mpolq i) (ntorq i) (mnmax i) (mnmaxq i)).
    { intros k Hk. destruct (N12 k ltac:(lia)) as (js & J1 & (x & J2) & J3). apply (elemN_vec _ _ _ _ _ _ (r_surf _ _ _ Rp)) in J1 as (_ & ->).
      split; [|exact J3]. destruct (r_sin _ _ _ Rp) as (A & B & _). unfold elem, asize in J2. rewrite A, B, Z.mul_1_r in J2.
      destruct (_ && _) eqn:Q in J2; [|discriminate]. apply andb_true_iff in Q. rewrite Z.leb_le, Z.ltb_lt in Q. exact Q. }
    destruct (Surf 0 ltac:(lia)) as (S0 & _ & S1 & S2).
    assert (Mq : 1 <= mnmaxq i).
    { destruct (N11 0 ltac:(lia)) as (x & y & X & _). unfold elem2 in X. destruct (_ && _) eqn:Q in X; [|discriminate]. rewrite !andb_true_iff, Z.ltb_lt in Q.
      assert (A : arows (oA o A_bsubumnc) = mnmaxq i) by apply (r_bsubumnc _ _ _ Rp). lia. }
    constructor; try lia; try assumption.
    + destruct (r_xm _ _ _ Rp) as (_ & _ & L & _). lia.
    + destruct Hg as [Ha|Ha]; [|exact Ha]. rewrite Ha in N9. exact N9.
    + intros k Hk. destruct (S1 k Hk) as (m & n & M1 & M2 & M3 & M4 & _). apply (elemN_vec _ _ _ _ _ _ (r_xm _ _ _ Rp)) in M1 as (_ & ->). exact M4.
    + intros k Hk. destruct (S1 k Hk) as (m & n & M1 & M2 & M3 & M4 & M5 & M6 & _). apply (elemN_vec _ _ _ _ _ _ (r_xn _ _ _ Rp)) in M2 as (_ & ->).
      rewrite kn_abs by lia. lia.
    + intros k Hk. destruct (S2 k Hk) as (m & n & M1 & M2 & M3 & M4 & _). apply (elemN_vec _ _ _ _ _ _ (r_xmq _ _ _ Rp)) in M1 as (_ & ->). exact M4.
    + intros k Hk. destruct (S2 k Hk) as (m & n & M1 & M2 & M3 & M4 & M5 & _). apply (elemN_vec _ _ _ _ _ _ (r_xnq _ _ _ Rp)) in M2 as (_ & ->).
      split; [apply I7; exact Hk|exact M5].
    + intros k Hk. now apply Surf.
  - intros Ok. destruct (run_total o i (conj Ok (conj Rp W))) as (o' & E & _). eauto.
Qed.
Theorem run_otherwise (o : obj) i : repr o i -> wf_obj o -> int_sized i -> 1 <= nfp i -> 1 <= nsurf i -> (0 <= mboz i \/ 0 <= nboz i) ->
  (asym i = true \/ ntheta i * nzeta i <= INT_MAX) -> ((exists why, run (bx_run S) o = RUB why) <-> ~ ok_inp i).
Proof.
  intros Rp W Hi Hf Hs Hneg Hg. rewrite <- (run_exactly o i) by assumption. split.
  - intros (why & E) (o' & ev & E'). unfold run_ok in E'. congruence.
  - intros N. destruct (run (bx_run S) o) as [[] o' ev|m o' ev|why] eqn:E; [|now apply run_never_throws in E|eauto].
    exfalso. apply N. exists o', ev. exact E.
Qed.
(** The contrapositive of [run_needs] for any object *)
Lemma int_case : int_sized (tiny (S := S) 2 1 1 1 0 1 0 0).
Proof. unfold int_sized, INT_MAX. cbn. repeat split; lia. Qed.
(** mboz and nboz both negative *)
Lemma negative_runs : exists o' ev, run (bx_run S) (obj_of (tiny (S := S) 2 1 (-1) 1 (-1) 1 0 0)) = ROk tt o' ev /\
  oI o' I_mnboz = Some 2 /\ oI o' I_n_theta_zeta = Some 0 /\
  (forall k, 0 <= k < 2 -> elemN o' N_xm_b k = Some (Some 0) /\ elemN o' N_xn_b k = Some (Some 0) /\
    forall f, In f [A_bmnc_b; A_rmnc_b; A_zmns_b; A_numns_b; A_gmnc_b] -> elem2 o' f k 0 = Some (Some (f0 S))).
Proof.
  assert (H : match run (bx_run S) (obj_of (tiny (S := S) 2 1 (-1) 1 (-1) 1 0 0)) with
    | ROk _ o' _ => (oI o' I_mnboz, oI o' I_n_theta_zeta, map (elemN o' N_xm_b) [0; 1], map (elemN o' N_xn_b) [0; 1],
        map (fun f => map (fun k => elem2 o' f k 0) [0; 1]) [A_bmnc_b; A_rmnc_b; A_zmns_b; A_numns_b; A_gmnc_b])
        = (Some 2, Some 0, [Some (Some 0); Some (Some 0)], [Some (Some 0); Some (Some 0)],
           let z := [Some (Some (f0 S)); Some (Some (f0 S))] in [z; z; z; z; z])
    | _ => False end) by (vm_compute; reflexivity).
  destruct (run (bx_run S) (obj_of (tiny (S := S) 2 1 (-1) 1 (-1) 1 0 0))) as [[] o' ev| |]; [|contradiction..].
  exists o', ev. split; [reflexivity|]. cbn [map] in H. cbv zeta in H.
  apply pair_equal_spec in H as (H & H5). apply pair_equal_spec in H as (H & H4). apply pair_equal_spec in H as (H & H3). apply pair_equal_spec in H as (H1 & H2).
  split; [exact H1|]. split; [exact H2|]. injection H3 as A0 A1. injection H4 as B0 B1. injection H5 as C0 C1 C2 C3 C4 C5 C6 C7 C8 C9.
  intros k Hk. assert (K : k = 0 \/ k = 1) by lia. destruct K as [->| ->]; (split; [assumption|split; [assumption|]]);
    intros f [<-|[<-|[<-|[<-|[<-|[]]]]]]; assumption.
Qed.
End Needs.

(** ** A rejected call of init_from_vmec, and run() after it *)
Section Rejected.
Context {S : Scalar}.
Notation obj := (obj S).
Theorem rejected_ns_in (o : obj) v msg o' ev : run (init_from_vmec S v) o = RThrow msg o' ev -> oI o' I_ns_in = Some (v_ns S v - 1).
Proof.
  unfold init_from_vmec. intros E. rewrite bind_run in E. unfold isub, int_ in E. destruct (in_int _); [|discriminate]. cbn [run] in E.
  rewrite bind_run in E. cbn [seti run] in E.
  match type of E with match match run ?p ?x with _ => _ end with _ => _ end = _ =>
    assert (K : spares (MI I_mboz :: MI I_nboz :: MF F_toroidal_flux :: MN N_compute_surfs ::
      map MA [A_s_in; A_iota; A_rmnc; A_zmns; A_lmns; A_bmnc; A_bsubumnc; A_bsubvmnc; A_phi; A_phip; A_chi; A_pres; A_rmns; A_zmnc; A_lmnc; A_bmns; A_bsubumns; A_bsubvmns]) p);
    [|pose proof (spares_run _ p x K) as Q; destruct (run p x) as [? ? ?|m o1 e1|]; try discriminate; injection E as _ <- _] end.
  - clear E. repeat first [progress sp | apply spares_elems | apply spares_elems_n | apply spares_fill; [inl|intros ?]
      | unfold reject; sp1 | progress unfold vet, store_profiles, store_half, report, radial_grids, resize_member, drop_first, interp].
  - rewrite (Q (MI I_ns_in)) by (cbn; intuition discriminate). reflexivity.
Qed.
Lemma run_ns_in (o o' : obj) ev : run (bx_run S) o = ROk tt o' ev -> exists n, oI o I_ns_in = Some n /\ 0 <= n /\
  forall f, In f [A_bsubumnc; A_bsubvmnc] -> 0 < n -> n <= acols (oA o f).
Proof.
  intros E. assert (R : ran (bx_run S) o tt o') by (exists ev; exact E). unfold bx_run in R.
  apply ran_bind in R as (u & o1 & Rh & _). unfold run_head in Rh. apply ran_bind in Rh as (vb & q & Rv & Rh). apply ran_geti in Rv as (_ & ->).
  apply ran_bind in Rh as (u0 & o0 & Rl & Rh). assert (K0 : same [] o o0) by (eapply ran_same; [|exact Rl]; sp). clear Rl.
  apply ran_bind in Rh as (u1 & o2 & Ri & _).
  destruct (ran_init _ _ _ Ri) as (b & mb & nb & nf & mp & nt & mq & nq & nsn & _ & _ & _ & _ & _ & _ & _ & _ & E9 & G). cbv zeta in G.
  destruct G as (_ & _ & _ & _ & _ & _ & _ & _ & _ & _ & _ & _ & _ & G11 & G12).
  rewrite (K0 (MI I_ns_in)) in E9 by (intros []). exists nsn. split; [exact E9|]. split; [exact G11|].
  intros f Hf Hp. destruct (G12 (nsn - 1) ltac:(lia)) as (x & y & X & Y). unfold elem2 in X, Y.
  rewrite !(K0 (MA A_bsubumnc)) in X by (intros []). rewrite !(K0 (MA A_bsubvmnc)) in Y by (intros []).
  destruct (_ && _) eqn:Q1 in X; [|discriminate]. destruct (_ && _) eqn:Q2 in Y; [|discriminate]. rewrite !andb_true_iff, !Z.ltb_lt in Q1, Q2.
  destruct Hf as [<-|[<-|[]]]; lia.
Qed.
Theorem rejected_then_run (o : obj) v msg o' ev : wf_obj o -> run (init_from_vmec S v) o = RThrow msg o' ev ->
  v_ns S v < 1 \/ acols (oA o A_bsubumnc) < v_ns S v - 1 \/ acols (oA o A_bsubvmnc) < v_ns S v - 1 ->
  exists why, run (bx_run S) o' = RUB why.
Proof.
  intros W E H. pose proof (rejected_ns_in _ _ _ _ _ E) as N. destruct (rejected_state _ _ _ _ _ E) as (_ & _ & _ & _ & _ & A).
  destruct (run (bx_run S) o') as [[] o2 ev2|m o2 ev2|why] eqn:R; [|now apply run_never_throws in R|eauto].
  exfalso. destruct (run_ns_in _ _ _ R) as (n & N' & N1 & N2). assert (n = v_ns S v - 1) by congruence. subst n.
  pose proof (N2 A_bsubumnc ltac:(cbn; tauto)) as B1. pose proof (N2 A_bsubvmnc ltac:(cbn; tauto)) as B2. rewrite A in B1, B2.
  destruct (wf_A _ W A_bsubumnc) as (_ & C1 & _). destruct (wf_A _ W A_bsubvmnc) as (_ & C2 & _). lia.
Qed.
Theorem rejected_case : wf_obj (obj_of (ex_inp S false)) /\ acols (oA (obj_of (ex_inp S false)) A_bsubumnc) < v_ns S (bad_args S) - 1 /\
  exists msg o' ev, run (init_from_vmec S (bad_args S)) (obj_of (ex_inp S false)) = RThrow msg o' ev.
Proof. split; [apply ex_valid|]. split; [vm_compute; reflexivity|apply bad_args_case]. Qed.
End Rejected.

(** C84: the theorem. *)
From Coq Require Import ZArith List String Bool Lia.
From Verif Require Import Scalar Prog Model Wp Func FuncExt Spec Vmec Nc NcModel NcSpec NcVoc NcWrite NcThms NcThms2 NcThms3 NcThms4 Py Frame FrameThms ReadAll Stored Written WrittenThm NoSurf WriteExact.
Import ListNotations.
Local Open Scope Z_scope.
Local Open Scope io_scope.

Section Proof.
Context {S : Scalar}.
Variable version : string.
Notation obj := (obj S).
Notation world := (world S).
Notation st := Written.st.

Lemma out_assoc {A B C} (m : io S A) (k : A -> io S B) (g : B -> io S C) (w : world) P : out (ibind m (fun a => ibind (k a) g)) w P -> out (ibind (ibind m k) g) w P.
Proof. unfold out, ibind. now destruct (m w). Qed.
Lemma out_ret {A B} (a : A) (k : A -> io S B) (w : world) P : out (k a) w P -> out (ibind (iret a) k) w P.
Proof. auto. Qed.
Ltac asc := match goal with |- out (ibind (ibind _ _) _) _ _ => apply out_assoc | |- out (ibind (iret _) _) _ _ => apply out_ret; cbv beta iota | _ => idtac end.
Ltac drop_old := repeat match goal with H : st _ _ _ _ _ ?w, q : wQ ?w = [] |- out _ ?w' _ => tryif constr_eq w w' then fail else clear H q end.
Ltac dm := first [split; reflexivity | apply dims_mat; lia].
Ltac need := let N := fresh in let Hf := fresh in intros N Hf; apply N; clear N.
Ltac nxt := cbv beta; let nc := fresh in let w := fresh "w" in let E := fresh in let H := fresh "H" in let q := fresh "q" in intros nc w _ (E & H) q; subst nc; cbn [app] in H; drop_old; asc.
Ltac pt := eapply out_then; [eapply ok_put; eassumption | eapply goes_put; [eassumption|eassumption|reflexivity|dm] | cbn [fine]; need; first [exact Logic.I | lia] | nxt].
Ltac ptN X := eapply out_then; [eapply ok_put_ints; eassumption | eapply goes_put_ints; [eassumption|eassumption|reflexivity|dm] | need; cbn; apply X; [assumption|cbn; tauto] | nxt].
Ltac ptA X := eapply out_then; [eapply ok_put_arr; eassumption | eapply goes_put_arr; [eassumption|eassumption|reflexivity|dm] | need; cbn; apply X; [assumption|cbn; tauto] | nxt].
Ltac ptM X W := eapply out_then; [eapply ok_put_mat; eassumption | (eapply goes_put_mat; cycle 1; [eassumption|eassumption|reflexivity|dm|cbn; apply W]) | need; cbn; apply X; [assumption|cbn; tauto] | nxt].
Ltac tr okL goL := eapply out_then; [eapply okL; eassumption | eapply goL; try eassumption; try lia | | cbv beta].
Ltac isin := cbn [In app]; repeat (first [left; reflexivity | right]).

Lemma known {T U} (vs : list (string * T)) (regs : list (string * U)) : forallb (fun y => match lookup vs y with Some _ => true | None => false end) (map fst regs) = true ->
  forall y, In y (map fst regs) -> lookup vs y <> None.
Proof. intros H y Hy. rewrite forallb_forall in H. specialize (H y Hy). destruct (lookup vs y); congruence. Qed.
Ltac names := apply known; reflexivity.
Lemma in_full {env} {o : obj} {ds} {vs} y p dd v (wl : world) : lookup vs y = Some dd -> wO wl = o -> deref S env p wl (nsize ds dd) = Some v ->
  exists dd v w0, lookup vs y = Some dd /\ wO w0 = o /\ deref S env p w0 (nsize ds dd) = Some v.
Proof. intros. exists dd, v, wl. auto. Qed.
Lemma d_N' env k sz n (wl : world) : asize (oN (wO wl) k) = sz -> n <= sz -> exists v, deref S env (MemN k sz) wl n = Some v.
Proof. intros E N. cbn. destruct (block_le _ _ _ E N) as (l & ->). cbn. eauto. Qed.
Lemma d_A' env k sz n (wl : world) : asize (oA (wO wl) k) = sz -> n <= sz -> exists v, deref S env (MemA k sz) wl n = Some v.
Proof. intros E N. cbn. destruct (block_le _ _ _ E N) as (l & ->). cbn. eauto. Qed.
Lemma d_A2 env k sz n (o : obj) (wl : world) : asize (oA (wO wl) k) = sz -> asize (oA (wO wl) k) = asize (oA o k) -> n <= asize (oA o k) -> exists v, deref S env (MemA k sz) wl n = Some v.
Proof. intros E1 E2 N. apply d_A'; [exact E1|lia]. Qed.
Lemma d_LN' env nm a sz n (wl : world) : lookup env nm = Some (LN S a) -> asize a = sz -> n <= sz -> exists v, deref S env (LocN nm sz) wl n = Some v.
Proof. intros L E N. cbn. rewrite L. destruct (block_le _ _ _ E N) as (l & ->). cbn. eauto. Qed.
Lemma d_LA' env nm a sz n (wl : world) : lookup env nm = Some (LA S a) -> asize a = sz -> n <= sz -> exists v, deref S env (LocA nm sz) wl n = Some v.
Proof. intros L E N. cbn. rewrite L. destruct (block_le _ _ _ E N) as (l & ->). cbn. eauto. Qed.
Lemma in_full' {env} {o : obj} {ds} {vs} y p dd n (wl : world) : lookup vs y = Some dd -> wO wl = o -> nsize ds dd = n -> (exists v, deref S env p wl n = Some v) ->
  exists dd v w0, lookup vs y = Some dd /\ wO w0 = o /\ deref S env p w0 (nsize ds dd) = Some v.
Proof. intros L O <- (v & D). exists dd, v, wl. auto. Qed.
Ltac sz := cbn; lia.
Ltac entry o Ow n1 nm nn nc := first
  [ eapply in_full; [reflexivity|exact Ow|reflexivity]
  | eapply in_full; [reflexivity|exact Ow|apply d_LS; [reflexivity|apply ds_version]]
  | eapply (in_full' _ _ _ (n1 * 1)); [reflexivity|exact Ow|reflexivity|first [eapply d_LA'; [reflexivity|sz|sz] | apply (d_A2 _ _ _ _ o); [rewrite Ow; reflexivity|rewrite Ow; reflexivity|lia]]]
  | eapply (in_full' _ _ _ (nc * 1)); [reflexivity|exact Ow|reflexivity|eapply d_LN'; [reflexivity|sz|sz]]
  | eapply (in_full' _ _ _ (nm * 1)); [reflexivity|exact Ow|reflexivity|apply d_N'; [rewrite Ow; reflexivity|sz]]
  | eapply (in_full' _ _ _ (nn * (nm * 1))); [reflexivity|exact Ow|reflexivity|first [eapply d_LA'; [reflexivity|sz|sz] | apply (d_A2 _ _ _ _ o); [rewrite Ow; reflexivity|rewrite Ow; reflexivity|lia]]] ].
Ltac finish := match goal with H : st _ _ _ _ _ ?w, q : wQ ?w = [] |- out _ ?w _ => eapply out_finish; [|exact H|exact q|]; [names|pose proof (proj1 H) as Ow; clear H q] end.
Theorem write_ends x (w : world) vb ns mn : wf_obj (wO w) -> lucky S w -> oI (wO w) I_verbose = Some vb -> oI (wO w) I_ns_in = Some ns -> oI (wO w) I_mnboz = Some mn ->
  0 <= ns <= 2147483643 -> 1 <= mn <= 2147483644 -> 1 <= asize (oN (wO w) N_compute_surfs) <= 2147483644 -> Z.of_nat (String.length version) <= 2147483622 ->
  out (write_boozmn S version x) w (fit (wO w) ns mn).
Proof.
  intros Hwf Hq Evb Ens Emn Nns Nmn Ncs Nv. set (o := wO w) in *. pose proof (wf_A o Hwf) as WA. pose proof (wf_N o Hwf) as WN.
  assert (HfN : fit o ns mn -> forall k, In k [N_xm_b; N_xn_b] -> asize (oN o k) <> 0).
  { intros (nb & asy & F1 & F2 & F3 & F4 & F5 & _) k Hk. specialize (F5 k Hk). lia. }
  assert (HfX : asize (oA o A_phip) <> 0 -> fit o ns mn -> forall k, In k [A_phip; A_chi; A_pres; A_phi] -> asize (oA o k) <> 0).
  { intros Np (nb & asy & F1 & F2 & F3 & F4 & F5 & F6 & F7 & _) k Hk. specialize (F7 Np k Hk). lia. }
  assert (HfA : fit o ns mn -> forall k, In k [A_bmnc_b; A_rmnc_b; A_zmns_b; A_numns_b; A_gmnc_b] -> asize (oA o k) <> 0).
  { intros (nb & asy & F1 & F2 & F3 & F4 & F5 & F6 & F7 & F8 & _) k Hk. specialize (F8 k Hk). nia. }
  assert (HfB : oB o B_asym = Some true -> fit o ns mn -> forall k, In k [A_bmns_b; A_rmns_b; A_zmnc_b; A_numnc_b; A_gmns_b] -> asize (oA o k) <> 0).
  { intros Eb (nb & asy & F1 & F2 & F3 & F4 & F5 & F6 & F7 & F8 & F9 & F10) k Hk. rewrite Eb in F2. injection F2 as <-. pose proof (proj1 (F10 eq_refl) k Hk). nia. }
  assert (Lv : Z.of_nat (String.length ("C++/Python booz_xform " ++ version)) = 22 + Z.of_nat (String.length version)) by (cbn [append String.length]; lia).
  unfold write_boozmn.
  apply out_then with (P := True) (Q := fun _ w' => wO w' = o).
  { unfold chatter. apply ok_lift. intros a o' ev E. cbn in E. cbn. fold o in E. rewrite Evb in E. cbn in E. destruct (0 <? vb); cbn in E; now injection E as _ <- _. }
  { apply goes_lift; [exact Hq|]. left. split; [exact Logic.I|]. cbn. fold o. rewrite Evb. cbn. destruct (0 <? vb); cbn; eexists _, _, _; reflexivity. }
  { tauto. }
  intros ? w0 _ O0 q0.
  apply out_then with (P := True) (Q := fun nc w' => exists h, nc = mkWr h [] /\ st x h o [] [] w').
  { unfold new_writer. apply ok_then with (P := fun c w' => match c with Err _ => True | Good h => st x h o [] [] w' end).
    - unfold nc_create. apply ok_call; [|intros; exact Logic.I]. intros w1 E1 E2. cbn. split; [cbn; congruence|]. exists (mkFile [] []). split; [|split; reflexivity].
      unfold handle. cbn. now rewrite Z.eqb_refl.
    - intros [m|h] w1 H1; [exact Logic.I|]. apply ok_bind, ok_ret, ok_ret. eauto. }
  { left. split; [exact Logic.I|]. unfold new_writer, nc_create, ibind, Nc.call. rewrite q0. eexists _, _. split; [reflexivity|exact q0]. }
  { tauto. }
  intros nc w1 _ (h & -> & H1) q1.
  tr @ok_geti @goes_geti. { need. congruence. } intros ns' w2 _ (E2 & H2) q2. rewrite Ens in E2. injection E2 as <-.
  tr @ok_iadd @goes_iadd. { need. unfold INT_MIN, INT_MAX. lia. } intros n1 w3 _ (-> & H3) q3.
  tr @ok_wdim @goes_wdim. { reflexivity. } { tauto. } intros ? w4 _ (H4 & _) q4.
  tr @ok_geti @goes_geti. { need. congruence. } intros mn' w5 _ (E5 & H5) q5. rewrite Emn in E5. injection E5 as <-.
  tr @ok_wdim @goes_wdim. { reflexivity. } { tauto. } intros ? w6 _ (H6 & _) q6.
  tr @ok_wdim @goes_wdim. { reflexivity. } { tauto. } intros ? w7 _ (H7 & _) q7.
  tr @ok_sizen @goes_sizen. { tauto. } intros ncs w8 _ (-> & H8) q8.
  tr @ok_wdim @goes_wdim. { reflexivity. } { tauto. } intros ? w9 _ (H9 & _) q9.
  tr @ok_wdim @goes_wdim. { reflexivity. } { tauto. } intros ? w10 _ (H10 & _) q10.
  cbv zeta. cbn [app] in H10. drop_old.
  eapply out_then; [eapply ok_put_string; [|exact H10]; reflexivity|eapply goes_put_string; [exact H10|exact q10|reflexivity|reflexivity|lia]|tauto|]. cbv beta. intros nc w11 _ (-> & H11) q11. cbn [app] in H11.
  set (vlen := Z.of_nat (String.length ("C++/Python booz_xform " ++ version))) in *. 
  tr @ok_getb @goes_getb. { intros N (nb & asy & F1 & F2 & _). apply N. congruence. } intros asy w12 _ (Eas & H12) q12. drop_old.
  pt. pt. pt. pt. pt. pt. pt. pt. pt. pt.
  tr @ok_geti @goes_geti. { intros N (nb & asy' & F1 & F2 & _). apply N. congruence. } intros nb wb _ (Enb & Hb) qb. drop_old.
  tr @ok_jlist @goes_jlist. { intros N (nb' & asy' & F1 & F2 & F3 & F4 & _). rewrite Enb in F1. injection F1 as <-. apply N. split; [lia|exact F4]. }
  intros jl wj (Nb & Pj) ((_ & Aj & _) & Hj) qj. drop_old.
  eapply out_then; [eapply ok_put; eassumption | eapply goes_put; [eassumption|eassumption|reflexivity|dm] | cbn [fine]; intros N (nb' & asy' & F1 & F2 & F3 & _); rewrite Enb in F1; injection F1 as <-; apply N; lia| nxt].
  ptN HfN. ptN HfN.
  tr @ok_prepend @goes_prepend. { unfold INT_MAX; lia. } { intros N (? & ? & _ & _ & _ & _ & _ & F6 & _). apply N, F6. cbn; tauto. } intros iota wi Pi ((li & Ai & _) & Hi) qi. drop_old.
  tr @ok_prepend @goes_prepend. { unfold INT_MAX; lia. } { intros N (? & ? & _ & _ & _ & _ & _ & F6 & _). apply N, F6. cbn; tauto. } intros buco wu Pu ((lu & Au & _) & Hu) qu. drop_old.
  tr @ok_prepend @goes_prepend. { unfold INT_MAX; lia. } { intros N (? & ? & _ & _ & _ & _ & _ & F6 & _). apply N, F6. cbn; tauto. } intros bvco wv Pv ((lv & Av & _) & Hv) qv. drop_old.
  pt. pt. pt.
  tr @ok_new @goes_new. { tauto. } intros pres wp _ ((_ & Ap & _) & Hp) qp. drop_old.
  pt.
  tr @ok_zero @goes_zero. { tauto. } intros z1 wz1 _ ((_ & Az1 & _) & Hz1) qz1. drop_old.
  tr @ok_zero @goes_zero. { tauto. } intros z2 wz2 _ ((_ & Az2 & _) & Hz2) qz2. drop_old.
  tr @ok_zero @goes_zero. { tauto. } intros z3 wz3 _ ((_ & Az3 & _) & Hz3) qz3. drop_old.
  tr @ok_size @goes_size. { tauto. } intros nph wn _ (-> & Hn) qn. drop_old.
  destruct (Z.eqb_spec (asize (oA o A_phip)) 0) as [Hph|Hph].
  - asc. tr @ok_zero @goes_zero. { tauto. } intros pr wr _ ((_ & Ar & _) & Hr) qr. drop_old. asc.
    pt. pt. pt. pt.
    ptM HfA WA. ptM HfA WA. ptM HfA WA.
    eapply out_then; [(eapply neg_wf; cycle 1; [eassumption|cbn; apply WA])|(eapply goes_neg; cycle 1; [eassumption|eassumption|cbn; apply WA])|cbn; intros N (? & ? & _ & _ & _ & _ & _ & _ & _ & _ & F9 & _); apply N, F9|]. cbv beta. intros ps wps Pps ((Aps & Wps) & Hps) qps. cbn in Pps, Aps. drop_old.
    eapply out_then; [eapply ok_put_local_mat; eassumption|eapply goes_put_local_mat; [exact Wps|eassumption|eassumption|reflexivity|dm]|need; rewrite Aps; apply HfA; [assumption|cbn; tauto]|nxt].
    ptM HfA WA.
    destruct asy.
    + asc. specialize (HfB Eas). ptM HfB WA. ptM HfB WA. ptM HfB WA.
      eapply out_then; [(eapply neg_wf; cycle 1; [eassumption|cbn; apply WA])|(eapply goes_neg; cycle 1; [eassumption|eassumption|cbn; apply WA])|cbn; intros N (? & ? & _ & F2 & _ & _ & _ & _ & _ & _ & _ & F10); rewrite Eas in F2; injection F2 as <-; apply N, (F10 eq_refl)|]. cbv beta. intros pc wpc Ppc ((Apc & Wpc) & Hpc) qpc. cbn in Ppc, Apc. drop_old. asc.
      eapply out_then; [eapply ok_put_local_mat; eassumption|eapply goes_put_local_mat; [exact Wpc|eassumption|eassumption|reflexivity|dm]|need; rewrite Apc; apply HfB; [assumption|cbn; tauto]|nxt].
      ptM HfB WA.
      finish. split.
      * intros Hf.
        assert (Jl : asize (oN o N_compute_surfs) * 1 <= asize jl) by (eapply (full_LN _ _ _ _ _ Hf "jlist"%string "jlist"%string); [isin|reflexivity|reflexivity|reflexivity]).
        assert (Jb : nb <= asize (oN o N_compute_surfs)) by (apply set_len; [apply WN|exact Nb|]; intros j Hj; destruct (Pj j Hj) as (z & Hz & _); eauto).
        assert (Ecs : asize (oN o N_compute_surfs) = nb) by lia.
        assert (X1 : mn * 1 <= asize (oN o N_xm_b)) by (eapply (full_N _ _ _ _ _ Hf "ixm_b"%string); [isin|reflexivity|reflexivity]).
        assert (X2 : mn * 1 <= asize (oN o N_xn_b)) by (eapply (full_N _ _ _ _ _ Hf "ixn_b"%string); [isin|reflexivity|reflexivity]).
        assert (M0 : asize (oN o N_compute_surfs) * (mn * 1) <= asize (oA o A_bmnc_b)) by (eapply (full_A _ _ _ _ _ Hf "bmnc_b"%string A_bmnc_b); [isin|reflexivity|reflexivity]).
        assert (M1 : asize (oN o N_compute_surfs) * (mn * 1) <= asize (oA o A_rmnc_b)) by (eapply (full_A _ _ _ _ _ Hf "rmnc_b"%string A_rmnc_b); [isin|reflexivity|reflexivity]).
        assert (M2 : asize (oN o N_compute_surfs) * (mn * 1) <= asize (oA o A_zmns_b)) by (eapply (full_A _ _ _ _ _ Hf "zmns_b"%string A_zmns_b); [isin|reflexivity|reflexivity]).
        assert (M3 : asize (oN o N_compute_surfs) * (mn * 1) <= asize (oA o A_gmnc_b)) by (eapply (full_A _ _ _ _ _ Hf "gmn_b"%string A_gmnc_b); [isin|reflexivity|reflexivity]).
        assert (M4 : asize (oN o N_compute_surfs) * (mn * 1) <= asize (oA o A_bmns_b)) by (eapply (full_A _ _ _ _ _ Hf "bmns_b"%string A_bmns_b); [isin|reflexivity|reflexivity]).
        assert (M5 : asize (oN o N_compute_surfs) * (mn * 1) <= asize (oA o A_rmns_b)) by (eapply (full_A _ _ _ _ _ Hf "rmns_b"%string A_rmns_b); [isin|reflexivity|reflexivity]).
        assert (M6 : asize (oN o N_compute_surfs) * (mn * 1) <= asize (oA o A_zmnc_b)) by (eapply (full_A _ _ _ _ _ Hf "zmnc_b"%string A_zmnc_b); [isin|reflexivity|reflexivity]).
        assert (M7 : asize (oN o N_compute_surfs) * (mn * 1) <= asize (oA o A_gmns_b)) by (eapply (full_A _ _ _ _ _ Hf "gmns_b"%string A_gmns_b); [isin|reflexivity|reflexivity]).
        assert (P0 : asize (oN o N_compute_surfs) * (mn * 1) <= asize ps) by (eapply (full_LA _ _ _ _ _ Hf "pmns_b"%string "pmns_b"%string); [isin|reflexivity|reflexivity|reflexivity]).
        assert (P1 : asize (oN o N_compute_surfs) * (mn * 1) <= asize pc) by (eapply (full_LA _ _ _ _ _ Hf "pmnc_b"%string "pmnc_b"%string); [isin|reflexivity|reflexivity|reflexivity]).
        clear Hf. rewrite Ecs in *. exists nb, true. split; [exact Enb|]. split; [exact Eas|]. split; [exact Ecs|]. split; [exact Pj|].
        split; [intros k [<-|[<-|[]]]; lia|]. split; [intros k [<-|[<-|[<-|[]]]]; assumption|].
        split; [intros N; contradiction|].
        split; [intros k Hk; cbn in Hk; repeat (destruct Hk as [<-|Hk]; [lia|]); destruct Hk|]. split; [exact Pps|].
        intros _. split; [intros k Hk; cbn in Hk; repeat (destruct Hk as [<-|Hk]; [lia|]); destruct Hk|exact Ppc].
      * intros (nb' & asy' & F1 & F2 & F3 & F4 & F5 & F6 & F7 & F8 & F9 & F10). rewrite Enb in F1. injection F1 as <-. rewrite Eas in F2. injection F2 as <-.
        pose proof (F5 N_xm_b ltac:(cbn; tauto)). pose proof (F5 N_xn_b ltac:(cbn; tauto)).
        pose proof (F8 A_bmnc_b ltac:(cbn; tauto)). pose proof (F8 A_rmnc_b ltac:(cbn; tauto)). pose proof (F8 A_zmns_b ltac:(cbn; tauto)). pose proof (F8 A_numns_b ltac:(cbn; tauto)). pose proof (F8 A_gmnc_b ltac:(cbn; tauto)).
        destruct (F10 eq_refl) as (G & _). pose proof (G A_bmns_b ltac:(cbn; tauto)). pose proof (G A_rmns_b ltac:(cbn; tauto)). pose proof (G A_zmnc_b ltac:(cbn; tauto)). pose proof (G A_numnc_b ltac:(cbn; tauto)). pose proof (G A_gmns_b ltac:(cbn; tauto)). clear G.
        clear F4 F5 F6 F7 F8 F9 F10 HfN HfX HfA HfB. intros y p Hin. cbn [In app] in Hin.
        repeat (destruct Hin as [Hin|Hin]; [injection Hin as <- <-; entry o Ow (ns + 1) mn (asize (oN o N_compute_surfs)) (asize (oN o N_compute_surfs))|]). destruct Hin.
    + asc. finish. split.
      * intros Hf.
        assert (Jl : asize (oN o N_compute_surfs) * 1 <= asize jl) by (eapply (full_LN _ _ _ _ _ Hf "jlist"%string "jlist"%string); [isin|reflexivity|reflexivity|reflexivity]).
        assert (Jb : nb <= asize (oN o N_compute_surfs)) by (apply set_len; [apply WN|exact Nb|]; intros j Hj; destruct (Pj j Hj) as (z & Hz & _); eauto).
        assert (Ecs : asize (oN o N_compute_surfs) = nb) by lia.
        assert (X1 : mn * 1 <= asize (oN o N_xm_b)) by (eapply (full_N _ _ _ _ _ Hf "ixm_b"%string); [isin|reflexivity|reflexivity]).
        assert (X2 : mn * 1 <= asize (oN o N_xn_b)) by (eapply (full_N _ _ _ _ _ Hf "ixn_b"%string); [isin|reflexivity|reflexivity]).
        assert (M0 : asize (oN o N_compute_surfs) * (mn * 1) <= asize (oA o A_bmnc_b)) by (eapply (full_A _ _ _ _ _ Hf "bmnc_b"%string A_bmnc_b); [isin|reflexivity|reflexivity]).
        assert (M1 : asize (oN o N_compute_surfs) * (mn * 1) <= asize (oA o A_rmnc_b)) by (eapply (full_A _ _ _ _ _ Hf "rmnc_b"%string A_rmnc_b); [isin|reflexivity|reflexivity]).
        assert (M2 : asize (oN o N_compute_surfs) * (mn * 1) <= asize (oA o A_zmns_b)) by (eapply (full_A _ _ _ _ _ Hf "zmns_b"%string A_zmns_b); [isin|reflexivity|reflexivity]).
        assert (M3 : asize (oN o N_compute_surfs) * (mn * 1) <= asize (oA o A_gmnc_b)) by (eapply (full_A _ _ _ _ _ Hf "gmn_b"%string A_gmnc_b); [isin|reflexivity|reflexivity]).
        assert (P0 : asize (oN o N_compute_surfs) * (mn * 1) <= asize ps) by (eapply (full_LA _ _ _ _ _ Hf "pmns_b"%string "pmns_b"%string); [isin|reflexivity|reflexivity|reflexivity]).
        clear Hf. rewrite Ecs in *. exists nb, false. split; [exact Enb|]. split; [exact Eas|]. split; [exact Ecs|]. split; [exact Pj|].
        split; [intros k [<-|[<-|[]]]; lia|]. split; [intros k [<-|[<-|[<-|[]]]]; assumption|].
        split; [intros N; contradiction|].
        split; [intros k Hk; cbn in Hk; repeat (destruct Hk as [<-|Hk]; [lia|]); destruct Hk|]. split; [exact Pps|].
        discriminate.
      * intros (nb' & asy' & F1 & F2 & F3 & F4 & F5 & F6 & F7 & F8 & F9 & F10). rewrite Enb in F1. injection F1 as <-. rewrite Eas in F2. injection F2 as <-.
        pose proof (F5 N_xm_b ltac:(cbn; tauto)). pose proof (F5 N_xn_b ltac:(cbn; tauto)).
        pose proof (F8 A_bmnc_b ltac:(cbn; tauto)). pose proof (F8 A_rmnc_b ltac:(cbn; tauto)). pose proof (F8 A_zmns_b ltac:(cbn; tauto)). pose proof (F8 A_numns_b ltac:(cbn; tauto)). pose proof (F8 A_gmnc_b ltac:(cbn; tauto)).
        clear F4 F5 F6 F7 F8 F9 F10 HfN HfX HfA HfB. intros y p Hin. cbn [In app] in Hin.
        repeat (destruct Hin as [Hin|Hin]; [injection Hin as <- <-; entry o Ow (ns + 1) mn (asize (oN o N_compute_surfs)) (asize (oN o N_compute_surfs))|]). destruct Hin.
  - asc. specialize (HfX Hph). eapply out_then; [eapply ok_phip; eassumption|eapply goes_phip; [apply WA|exact Hph|eassumption|eassumption]|tauto|]. cbv beta. intros ? wq _ (_ & Hq1) qq. drop_old. asc.
    ptA HfX. ptA HfX. ptA HfX. ptA HfX.
    ptM HfA WA. ptM HfA WA. ptM HfA WA.
    eapply out_then; [(eapply neg_wf; cycle 1; [eassumption|cbn; apply WA])|(eapply goes_neg; cycle 1; [eassumption|eassumption|cbn; apply WA])|cbn; intros N (? & ? & _ & _ & _ & _ & _ & _ & _ & _ & F9 & _); apply N, F9|]. cbv beta. intros ps wps Pps ((Aps & Wps) & Hps) qps. cbn in Pps, Aps. drop_old.
    eapply out_then; [eapply ok_put_local_mat; eassumption|eapply goes_put_local_mat; [exact Wps|eassumption|eassumption|reflexivity|dm]|need; rewrite Aps; apply HfA; [assumption|cbn; tauto]|nxt].
    ptM HfA WA.
    destruct asy.
    + asc. specialize (HfB Eas). ptM HfB WA. ptM HfB WA. ptM HfB WA.
      eapply out_then; [(eapply neg_wf; cycle 1; [eassumption|cbn; apply WA])|(eapply goes_neg; cycle 1; [eassumption|eassumption|cbn; apply WA])|cbn; intros N (? & ? & _ & F2 & _ & _ & _ & _ & _ & _ & _ & F10); rewrite Eas in F2; injection F2 as <-; apply N, (F10 eq_refl)|]. cbv beta. intros pc wpc Ppc ((Apc & Wpc) & Hpc) qpc. cbn in Ppc, Apc. drop_old. asc.
      eapply out_then; [eapply ok_put_local_mat; eassumption|eapply goes_put_local_mat; [exact Wpc|eassumption|eassumption|reflexivity|dm]|need; rewrite Apc; apply HfB; [assumption|cbn; tauto]|nxt].
      ptM HfB WA.
      finish. split.
      * intros Hf.
        assert (Jl : asize (oN o N_compute_surfs) * 1 <= asize jl) by (eapply (full_LN _ _ _ _ _ Hf "jlist"%string "jlist"%string); [isin|reflexivity|reflexivity|reflexivity]).
        assert (Jb : nb <= asize (oN o N_compute_surfs)) by (apply set_len; [apply WN|exact Nb|]; intros j Hj; destruct (Pj j Hj) as (z & Hz & _); eauto).
        assert (Ecs : asize (oN o N_compute_surfs) = nb) by lia.
        assert (X1 : mn * 1 <= asize (oN o N_xm_b)) by (eapply (full_N _ _ _ _ _ Hf "ixm_b"%string); [isin|reflexivity|reflexivity]).
        assert (X2 : mn * 1 <= asize (oN o N_xn_b)) by (eapply (full_N _ _ _ _ _ Hf "ixn_b"%string); [isin|reflexivity|reflexivity]).
        assert (M0 : asize (oN o N_compute_surfs) * (mn * 1) <= asize (oA o A_bmnc_b)) by (eapply (full_A _ _ _ _ _ Hf "bmnc_b"%string A_bmnc_b); [isin|reflexivity|reflexivity]).
        assert (M1 : asize (oN o N_compute_surfs) * (mn * 1) <= asize (oA o A_rmnc_b)) by (eapply (full_A _ _ _ _ _ Hf "rmnc_b"%string A_rmnc_b); [isin|reflexivity|reflexivity]).
        assert (M2 : asize (oN o N_compute_surfs) * (mn * 1) <= asize (oA o A_zmns_b)) by (eapply (full_A _ _ _ _ _ Hf "zmns_b"%string A_zmns_b); [isin|reflexivity|reflexivity]).
        assert (M3 : asize (oN o N_compute_surfs) * (mn * 1) <= asize (oA o A_gmnc_b)) by (eapply (full_A _ _ _ _ _ Hf "gmn_b"%string A_gmnc_b); [isin|reflexivity|reflexivity]).
        assert (M4 : asize (oN o N_compute_surfs) * (mn * 1) <= asize (oA o A_bmns_b)) by (eapply (full_A _ _ _ _ _ Hf "bmns_b"%string A_bmns_b); [isin|reflexivity|reflexivity]).
        assert (M5 : asize (oN o N_compute_surfs) * (mn * 1) <= asize (oA o A_rmns_b)) by (eapply (full_A _ _ _ _ _ Hf "rmns_b"%string A_rmns_b); [isin|reflexivity|reflexivity]).
        assert (M6 : asize (oN o N_compute_surfs) * (mn * 1) <= asize (oA o A_zmnc_b)) by (eapply (full_A _ _ _ _ _ Hf "zmnc_b"%string A_zmnc_b); [isin|reflexivity|reflexivity]).
        assert (M7 : asize (oN o N_compute_surfs) * (mn * 1) <= asize (oA o A_gmns_b)) by (eapply (full_A _ _ _ _ _ Hf "gmns_b"%string A_gmns_b); [isin|reflexivity|reflexivity]).
        assert (P0 : asize (oN o N_compute_surfs) * (mn * 1) <= asize ps) by (eapply (full_LA _ _ _ _ _ Hf "pmns_b"%string "pmns_b"%string); [isin|reflexivity|reflexivity|reflexivity]).
        assert (P1 : asize (oN o N_compute_surfs) * (mn * 1) <= asize pc) by (eapply (full_LA _ _ _ _ _ Hf "pmnc_b"%string "pmnc_b"%string); [isin|reflexivity|reflexivity|reflexivity]).
        assert (Q0 : (ns + 1) * 1 <= asize (oA o A_phip)) by (eapply (full_A _ _ _ _ _ Hf "phip_b"%string A_phip); [isin|reflexivity|reflexivity]).
        assert (Q1 : (ns + 1) * 1 <= asize (oA o A_chi)) by (eapply (full_A _ _ _ _ _ Hf "chi_b"%string A_chi); [isin|reflexivity|reflexivity]).
        assert (Q2 : (ns + 1) * 1 <= asize (oA o A_pres)) by (eapply (full_A _ _ _ _ _ Hf "pres_b"%string A_pres); [isin|reflexivity|reflexivity]).
        assert (Q3 : (ns + 1) * 1 <= asize (oA o A_phi)) by (eapply (full_A _ _ _ _ _ Hf "phi_b"%string A_phi); [isin|reflexivity|reflexivity]).
        clear Hf. rewrite Ecs in *. exists nb, true. split; [exact Enb|]. split; [exact Eas|]. split; [exact Ecs|]. split; [exact Pj|].
        split; [intros k [<-|[<-|[]]]; lia|]. split; [intros k [<-|[<-|[<-|[]]]]; assumption|].
        split; [intros _ k [<-|[<-|[<-|[<-|[]]]]]; lia|].
        split; [intros k Hk; cbn in Hk; repeat (destruct Hk as [<-|Hk]; [lia|]); destruct Hk|]. split; [exact Pps|].
        intros _. split; [intros k Hk; cbn in Hk; repeat (destruct Hk as [<-|Hk]; [lia|]); destruct Hk|exact Ppc].
      * intros (nb' & asy' & F1 & F2 & F3 & F4 & F5 & F6 & F7 & F8 & F9 & F10). rewrite Enb in F1. injection F1 as <-. rewrite Eas in F2. injection F2 as <-.
        pose proof (F5 N_xm_b ltac:(cbn; tauto)). pose proof (F5 N_xn_b ltac:(cbn; tauto)).
        pose proof (F8 A_bmnc_b ltac:(cbn; tauto)). pose proof (F8 A_rmnc_b ltac:(cbn; tauto)). pose proof (F8 A_zmns_b ltac:(cbn; tauto)). pose proof (F8 A_numns_b ltac:(cbn; tauto)). pose proof (F8 A_gmnc_b ltac:(cbn; tauto)).
        destruct (F10 eq_refl) as (G & _). pose proof (G A_bmns_b ltac:(cbn; tauto)). pose proof (G A_rmns_b ltac:(cbn; tauto)). pose proof (G A_zmnc_b ltac:(cbn; tauto)). pose proof (G A_numnc_b ltac:(cbn; tauto)). pose proof (G A_gmns_b ltac:(cbn; tauto)). clear G.
        specialize (F7 Hph). pose proof (F7 A_phip ltac:(cbn; tauto)). pose proof (F7 A_chi ltac:(cbn; tauto)). pose proof (F7 A_pres ltac:(cbn; tauto)). pose proof (F7 A_phi ltac:(cbn; tauto)).
        clear F4 F5 F6 F7 F8 F9 F10 HfN HfX HfA HfB. intros y p Hin. cbn [In app] in Hin.
        repeat (destruct Hin as [Hin|Hin]; [injection Hin as <- <-; entry o Ow (ns + 1) mn (asize (oN o N_compute_surfs)) (asize (oN o N_compute_surfs))|]). destruct Hin.
    + asc. finish. split.
      * intros Hf.
        assert (Jl : asize (oN o N_compute_surfs) * 1 <= asize jl) by (eapply (full_LN _ _ _ _ _ Hf "jlist"%string "jlist"%string); [isin|reflexivity|reflexivity|reflexivity]).
        assert (Jb : nb <= asize (oN o N_compute_surfs)) by (apply set_len; [apply WN|exact Nb|]; intros j Hj; destruct (Pj j Hj) as (z & Hz & _); eauto).
        assert (Ecs : asize (oN o N_compute_surfs) = nb) by lia.
        assert (X1 : mn * 1 <= asize (oN o N_xm_b)) by (eapply (full_N _ _ _ _ _ Hf "ixm_b"%string); [isin|reflexivity|reflexivity]).
        assert (X2 : mn * 1 <= asize (oN o N_xn_b)) by (eapply (full_N _ _ _ _ _ Hf "ixn_b"%string); [isin|reflexivity|reflexivity]).
        assert (M0 : asize (oN o N_compute_surfs) * (mn * 1) <= asize (oA o A_bmnc_b)) by (eapply (full_A _ _ _ _ _ Hf "bmnc_b"%string A_bmnc_b); [isin|reflexivity|reflexivity]).
        assert (M1 : asize (oN o N_compute_surfs) * (mn * 1) <= asize (oA o A_rmnc_b)) by (eapply (full_A _ _ _ _ _ Hf "rmnc_b"%string A_rmnc_b); [isin|reflexivity|reflexivity]).
        assert (M2 : asize (oN o N_compute_surfs) * (mn * 1) <= asize (oA o A_zmns_b)) by (eapply (full_A _ _ _ _ _ Hf "zmns_b"%string A_zmns_b); [isin|reflexivity|reflexivity]).
        assert (M3 : asize (oN o N_compute_surfs) * (mn * 1) <= asize (oA o A_gmnc_b)) by (eapply (full_A _ _ _ _ _ Hf "gmn_b"%string A_gmnc_b); [isin|reflexivity|reflexivity]).
        assert (P0 : asize (oN o N_compute_surfs) * (mn * 1) <= asize ps) by (eapply (full_LA _ _ _ _ _ Hf "pmns_b"%string "pmns_b"%string); [isin|reflexivity|reflexivity|reflexivity]).
        assert (Q0 : (ns + 1) * 1 <= asize (oA o A_phip)) by (eapply (full_A _ _ _ _ _ Hf "phip_b"%string A_phip); [isin|reflexivity|reflexivity]).
        assert (Q1 : (ns + 1) * 1 <= asize (oA o A_chi)) by (eapply (full_A _ _ _ _ _ Hf "chi_b"%string A_chi); [isin|reflexivity|reflexivity]).
        assert (Q2 : (ns + 1) * 1 <= asize (oA o A_pres)) by (eapply (full_A _ _ _ _ _ Hf "pres_b"%string A_pres); [isin|reflexivity|reflexivity]).
        assert (Q3 : (ns + 1) * 1 <= asize (oA o A_phi)) by (eapply (full_A _ _ _ _ _ Hf "phi_b"%string A_phi); [isin|reflexivity|reflexivity]).
        clear Hf. rewrite Ecs in *. exists nb, false. split; [exact Enb|]. split; [exact Eas|]. split; [exact Ecs|]. split; [exact Pj|].
        split; [intros k [<-|[<-|[]]]; lia|]. split; [intros k [<-|[<-|[<-|[]]]]; assumption|].
        split; [intros _ k [<-|[<-|[<-|[<-|[]]]]]; lia|].
        split; [intros k Hk; cbn in Hk; repeat (destruct Hk as [<-|Hk]; [lia|]); destruct Hk|]. split; [exact Pps|].
        discriminate.
      * intros (nb' & asy' & F1 & F2 & F3 & F4 & F5 & F6 & F7 & F8 & F9 & F10). rewrite Enb in F1. injection F1 as <-. rewrite Eas in F2. injection F2 as <-.
        pose proof (F5 N_xm_b ltac:(cbn; tauto)). pose proof (F5 N_xn_b ltac:(cbn; tauto)).
        pose proof (F8 A_bmnc_b ltac:(cbn; tauto)). pose proof (F8 A_rmnc_b ltac:(cbn; tauto)). pose proof (F8 A_zmns_b ltac:(cbn; tauto)). pose proof (F8 A_numns_b ltac:(cbn; tauto)). pose proof (F8 A_gmnc_b ltac:(cbn; tauto)).
        specialize (F7 Hph). pose proof (F7 A_phip ltac:(cbn; tauto)). pose proof (F7 A_chi ltac:(cbn; tauto)). pose proof (F7 A_pres ltac:(cbn; tauto)). pose proof (F7 A_phi ltac:(cbn; tauto)).
        clear F4 F5 F6 F7 F8 F9 F10 HfN HfX HfA HfB. intros y p Hin. cbn [In app] in Hin.
        repeat (destruct Hin as [Hin|Hin]; [injection Hin as <- <-; entry o Ow (ns + 1) mn (asize (oN o N_compute_surfs)) (asize (oN o N_compute_surfs))|]). destruct Hin.
Qed.
End Proof.

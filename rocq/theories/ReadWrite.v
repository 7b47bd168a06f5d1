(** C85: whatever read_boozmn has read can be written. *)
From Coq Require Import ZArith List String Bool Lia QArith.
From Verif Require Import Scalar Prog Model Wp Func FuncExt Spec Vmec Nc NcModel NcSpec NcVoc NcThms4 Py Frame FrameThms ReadAll Stored Short Written Sound SoundThms SoundEx WrittenEx NoSurf ReadNeeds WriteExact WriteExactThm WriteExactEx.
Import ListNotations.
Local Open Scope Z_scope.
Local Open Scope io_scope.

Section Read.
Context {S : Scalar}.
Notation obj := (obj S).
Notation world := (world S).
Notation io := (io S).
Notation arr := (arr S).

Lemma neg_set (a b : arr) o o' ev r c : shaped a r c -> run (neg_arr S a) o = ROk b o' ev -> o' = o /\ shaped b r c /\ set_to b (r * c).
Proof.
  intros Sa E. destruct (neg_ok _ _ _ _ _ _ _ Sa E) as (Eo & Sb & _). split; [exact Eo|]. split; [exact Sb|]. destruct Sa as (S1 & S2 & S3). assert (Hp : 0 <= r * c) by lia.
  unfold neg_arr in E. rewrite bind_run in E.
  destruct (run (for_ 0 _ _ _) o) as [b0 o0 e0| |] eqn:E0; try discriminate E. cbn in E. injection E as -> -> _.
  unfold for_ in E0. eapply for_from_ok with (lo := 0) (Inv := fun i (b : arr) => forall k, 0 <= k < i -> exists x, znth (adata b) k = Some (Some x)) in E0.
  - destruct E0 as (_ & H4). intros k Hk. apply H4. unfold asize. rewrite S1, S2. lia.
  - clear E0. intros i st st' o1 ev1 H4 R. rewrite bind_run in R. unfold vget in R.
    destruct (znth (adata a) i) as [[x|]|] eqn:Ex; try discriminate R. cbn in R. unfold vset in R.
    destruct (znth (adata st) i) as [y|] eqn:Ey; [|discriminate R]. cbn in R. injection R as <- <- _. split; [reflexivity|]. cbn. intros k Hk.
    assert (Hr : 0 <= i < Z.of_nat (List.length (adata st))) by (apply znth_Some; eauto).
    destruct (Z.eq_dec k i) as [->|Hki]; [eexists; now apply znth_zset_same|]. rewrite znth_zset_other by lia. apply H4. lia.
  - intros k Hk. lia.
Qed.
Lemma go_neg2 h f K k r c : (forall a, kA K k a -> shaped a r c) ->
  go h f K (lift (bind (getarr k) (neg_arr S))) (fun _ => K) (fun b => shaped b r c /\ set_to b (r * c)).
Proof.
  intros Hk w Hw Hi. unfold lift. rewrite bind_run. cbn [getarr run].
  destruct (run (neg_arr S (oA (wO w) k)) (wO w)) as [b o ev|e o ev|] eqn:E; auto.
  destruct (neg_set _ _ _ _ _ _ _ (Hk _ (proj1 Hi k)) E) as (-> & Hb). auto.
Qed.

Ltac known_shape := let H := fresh in intros ? H; cbn in H; first [exact H|exact (proj1 H)].
Ltac rule := lazymatch goal with
  | |- go _ _ _ (get_int _ _ _ _) _ _ => apply go_get_int
  | |- go _ _ _ (get_ints _ _ _ _) _ _ => eapply go_ints1; known_shape
  | |- go _ _ _ (get_arr _ _ _ _) _ _ => eapply go_get_arr; known_shape
  | |- go _ _ _ (itry _) _ _ => eapply go_try_arr; known_shape
  | |- go _ _ _ (get_local _ _ _ _) _ _ => eapply go_local1; eassumption
  | |- go _ _ _ (get_local_int _ _ _) _ _ => apply go_get_local_int
  | |- go _ _ _ (getdim _ _ _) _ _ => apply go_getdim
  | |- go _ _ _ (val _ _) _ _ => apply go_val
  | |- go _ _ _ (theobj _) _ _ => apply go_theobj
  | |- go _ _ _ (resize_ints _ _ _) _ _ => apply go_resize_ints; known_shape
  | |- go _ _ _ (resize_arr _ _ _ _) _ _ => apply go_resize_arr; known_shape
  | |- go _ _ _ (new_vec _ _) _ _ => apply go_new_vec
  | |- go _ _ _ (chatter _ _) _ _ => apply go_pure; sp; first [apply spares_elems|apply spares_elems_n|idtac]
  | |- go _ _ _ (lift (getb B_asym)) _ _ => apply go_getb
  | |- go _ _ _ (lift (geti _)) _ _ => apply go_geti
  | |- go _ _ _ (lift (seti _ _)) _ _ => apply go_seti
  | |- go _ _ _ (lift (setf _ _)) _ _ => apply go_setf
  | |- go _ _ _ (lift (int_ _)) _ _ => apply go_int
  | |- go _ _ _ (lift (isub _ _)) _ _ => apply go_isub
  | |- go _ _ _ (lift (iadd _ _)) _ _ => apply go_iadd
  | |- go _ _ _ (lift (getv _ _)) _ _ => apply go_pure; sp
  | |- go _ _ _ (lift (fill_vec _ _ _ (fun j => vget _ (j + 1)))) _ _ => apply go_copy; known_shape
  | |- go _ _ _ (lift (fill_vec _ A_s_b _ _)) _ _ => match goal with Hcs : shaped ?cs _ 1 /\ _ |- _ => apply (go_s_b _ _ _ _ cs); known_shape end
  | |- go _ _ _ (lift (bind (getarr _) (neg_arr _))) _ _ => eapply go_neg2; known_shape
  end.
Ltac f1 := eapply fin_bind; [rule|let H := fresh in intros ? H; cbn beta in H |- *].
Ltac r1 := eapply go_bind; [rule|let H := fresh in intros ? H; cbn beta in H |- *].



(** What is known of an object after read_boozmn *)
Definition ready (v : Z) (o : obj) : Prop := exists mn ns nb asy, oI o I_verbose = Some v /\ oI o I_mnboz = Some mn /\ oI o I_ns_in = Some ns /\ oI o I_ns_b = Some nb /\
  oB o B_asym = Some asy /\ 1 <= mn /\ 0 <= ns /\ 1 <= nb /\
  shaped (oN o N_compute_surfs) nb 1 /\ set_to (oN o N_compute_surfs) nb /\
  (forall k, In k [N_xm_b; N_xn_b] -> shaped (oN o k) mn 1) /\
  (forall k, In k [A_iota; A_Boozer_I_all; A_Boozer_G_all] -> set_to (oA o k) ns) /\
  (forall k, In k [A_phip; A_chi; A_pres; A_phi] -> shaped (oA o k) (ns + 1) 1) /\
  (forall k, In k [A_bmnc_b; A_rmnc_b; A_zmns_b; A_numns_b; A_gmnc_b] -> shaped (oA o k) mn nb) /\ set_to (oA o A_numns_b) (mn * nb) /\
  (asy = true -> (forall k, In k [A_bmns_b; A_rmns_b; A_zmnc_b; A_numnc_b; A_gmns_b] -> shaped (oA o k) mn nb) /\ set_to (oA o A_numnc_b) (mn * nb)).
Definition start1 (v : Z) : Stored.known (S := S) := mkKn (fun _ => wf_arr) (fun _ => wf_arr) (fun k c => k = I_verbose -> c = Some v) (fun _ => True).
Ltac shp H := first [exact H|exact (proj1 H)].
Ltac copied_set H := let j := fresh in let Hj := fresh in intros j Hj; destruct (proj2 H j Hj) as (? & _ & ?); eauto.
Ltac ends HA HN HI HB :=
  match goal with H : ?x = _ + 1 |- _ => subst x end;
  eexists; eexists; eexists; eexists; split; [exact (HI I_verbose eq_refl)|]; split; [exact (proj2 (HI I_mnboz))|]; split; [exact (HI I_ns_in)|]; split; [exact (HI I_ns_b)|];
  split; [exact (proj2 HB)|]; split; [lia|]; split; [lia|]; split; [lia|];
  let G := fresh in pose proof (HN N_compute_surfs) as G; cbn in G; rewrite !G;
  split; [match goal with Hc : shaped _ _ _ /\ _ |- _ => exact (proj1 Hc) end|];
  split; [let j := fresh in let Hj := fresh in intros j Hj; destruct (proj2 (HA A_s_b) j Hj) as (? & (? & ? & ->) & ?); eauto|];
  split; [let k := fresh in intros k [<-|[<-|[]]]; [shp (HN N_xm_b)|shp (HN N_xn_b)]|];
  split; [let k := fresh in intros k [<-|[<-|[<-|[]]]]; [copied_set (HA A_iota)|copied_set (HA A_Boozer_I_all)|copied_set (HA A_Boozer_G_all)]|];
  split; [let k := fresh in intros k [<-|[<-|[<-|[<-|[]]]]]; [shp (HA A_phip)|shp (HA A_chi)|shp (HA A_pres)|shp (HA A_phi)]|];
  split; [let k := fresh in intros k [<-|[<-|[<-|[<-|[<-|[]]]]]]; [shp (HA A_bmnc_b)|shp (HA A_rmnc_b)|shp (HA A_zmns_b)|shp (HA A_numns_b)|shp (HA A_gmnc_b)]|];
  split; [exact (proj2 (HA A_numns_b))|].
Theorem read_ready x (w w' : world) : wf_obj (wO w) -> read_boozmn S x w = IOk tt w' -> exists v, ready v (wO w').
Proof.
  intros Wf E. unfold read_boozmn in E. apply bind_ok in E. destruct E as ([] & w1 & E1 & E).
  assert (Hw1 : exists v, oI (wO w) I_verbose = Some v /\ wO w1 = wO w).
  { unfold chatter, lift in E1. cbn in E1. destruct (oI (wO w) I_verbose) as [v|]; [|discriminate E1]. exists v. destruct (0 <? v); injection E1 as <-; auto. }
  destruct Hw1 as (v & Ev & O1). exists v. apply bind_ok in E. destruct E as (h & w2 & E2 & E). apply reader_opens in E2.
  destruct E2 as (f & X2 & H2 & O2 & _).
  assert (Hi : inv (start1 v) (wO w2)).
  { rewrite O2, O1. destruct Wf as [WN WA]. split; [exact WA|]. split; [intros k; exact (proj1 (WN k))|]. split; [intros k ->; exact Ev|exact Logic.I]. }
  clear E1 O1 X2 O2 Wf Ev w w1. revert w2 H2 Hi E.
  match goal with |- forall w2, _ -> _ -> ?m w2 = _ -> _ => enough (G : fin h f (start1 v) m (ready v)) end.
  { intros w2 H2 Hi E. specialize (G w2 H2 Hi). rewrite E in G. exact G. }
  do 2 f1. eapply fin_bind; [apply go_setb|]. intros ? ?. cbn beta.
  repeat f1.
  eapply fin_bind.
  { match goal with Ho : inv _ ?o |- _ => pose proof (proj1 (proj2 Ho) N_compute_surfs) as Hj; cbn in Hj; destruct Hj as (Hj1 & Hj2) end.
    eapply go_minus2; [exact Hj1|exact Hj2]. }
  intros cs Hcs. cbn beta in Hcs |- *. eapply fin_bind; [apply go_setn with (P := fun b => b = cs); reflexivity|]. intros ? ?. cbn beta.
  repeat f1.
  eapply fin_bind; [eapply go_setarr with (P := fun b => shaped b _ _ /\ set_to b _); eassumption|]. intros ? ?. cbn beta.
  repeat f1.
  match goal with |- context [if ?b then _ else _] => destruct b end.
  - eapply fin_bind.
    { repeat r1. eapply go_bind; [eapply go_setarr with (P := fun b => shaped b _ _ /\ set_to b _); eassumption|]. intros ? ?. cbn beta. rule. }
    intros ? ?. cbn beta. repeat f1. apply fin_close. intros o (HA & HN & HI & HB). ends HA HN HI HB.
    intros _. split; [let k := fresh in intros k [<-|[<-|[<-|[<-|[<-|[]]]]]]; [shp (HA A_bmns_b)|shp (HA A_rmns_b)|shp (HA A_zmnc_b)|shp (HA A_numnc_b)|shp (HA A_gmns_b)]|exact (proj2 (HA A_numnc_b))].
  - eapply fin_bind; [repeat r1; rule|]. intros ? ?. cbn beta. repeat f1. apply fin_close. intros o (HA & HN & HI & HB). ends HA HN HI HB. discriminate.
Qed.

Theorem read_set x (w w' : world) : wf_obj (wO w) -> read_boozmn S x w = IOk tt w' ->
  exists mn ns nb asy, oI (wO w') I_mnboz = Some mn /\ oI (wO w') I_ns_in = Some ns /\ oI (wO w') I_ns_b = Some nb /\ oB (wO w') B_asym = Some asy /\
  set_to (oN (wO w') N_compute_surfs) nb /\ (forall k, In k [A_iota; A_Boozer_I_all; A_Boozer_G_all] -> set_to (oA (wO w') k) ns) /\
  set_to (oA (wO w') A_numns_b) (mn * nb) /\ (asy = true -> set_to (oA (wO w') A_numnc_b) (mn * nb)).
Proof.
  intros W E. destruct (read_ready x w w' W E) as (v & mn & ns & nb & asy & _ & Em & En & Eb & Ea & _ & _ & _ & _ & Pc & _ & Pr & _ & _ & Pn & Has).
  exists mn, ns, nb, asy. do 7 (split; [assumption|]). intros Ht. apply (Has Ht).
Qed.
Lemma ready_fit v (o : obj) : ready v o -> (forall j c, znth (adata (oN o N_compute_surfs)) j = Some (Some c) -> INT_MIN <= c + 2 <= INT_MAX) ->
  exists ns mn, oI o I_ns_in = Some ns /\ oI o I_mnboz = Some mn /\ fit o ns mn.
Proof.
  intros (mn & ns & nb & asy & _ & Em & En & Eb & Ea & _ & _ & _ & Sc & Pc & Sx & Pr & Sp & Sm & Pn & Has) Hc.
  assert (Zr : forall T (a : array T) r c, shaped a r c -> asize a = r * c) by (intros T a r c (R1 & R2 & _); unfold asize; congruence).
  exists ns, mn. split; [exact En|]. split; [exact Em|]. exists nb, asy. split; [exact Eb|]. split; [exact Ea|].
  split; [rewrite (Zr _ _ _ _ Sc); lia|].
  split. { intros j Hj. destruct (Pc j Hj) as (z & Hz). exists z. split; [exact Hz|]. apply Hc in Hz. lia. }
  split; [intros k Hk; rewrite (Zr _ _ _ _ (Sx k Hk)); lia|]. split; [exact Pr|].
  split; [intros _ k Hk; rewrite (Zr _ _ _ _ (Sp k Hk)); lia|].
  split; [intros k Hk; rewrite (Zr _ _ _ _ (Sm k Hk)); lia|].
  split; [rewrite (Zr _ _ _ _ (Sm A_numns_b ltac:(cbn; tauto))); exact Pn|].
  intros Ht. destruct (Has Ht) as (Sm' & Pn'). split; [intros k Hk; rewrite (Zr _ _ _ _ (Sm' k Hk)); lia|].
  rewrite (Zr _ _ _ _ (Sm' A_numnc_b ltac:(cbn; tauto))). exact Pn'.
Qed.
Theorem read_then_write version l x y (w0 w w1 : world) : wO w0 = obj_new S -> performs version l w0 w -> exec version (ReadBoozmn x) w = IOk tt w1 -> lucky S w1 ->
  Z.of_nat (String.length version) <= 2147483622 ->
  ((exists w2, exec version (Write y) w1 = IOk tt w2) <->
   exists ns mn, oI (wO w1) I_ns_in = Some ns /\ oI (wO w1) I_mnboz = Some mn /\ ns <= 2147483643 /\ mn <= 2147483644 /\
     asize (oN (wO w1) N_compute_surfs) <= 2147483644 /\
     forall j c, znth (adata (oN (wO w1) N_compute_surfs)) j = Some (Some c) -> INT_MIN <= c + 2 <= INT_MAX).
Proof.
  intros N P E L V. cbn [exec] in E |- *.
  pose proof (from_new version l w0 w N P) as T. assert (T1 : tidy (wO w1)) by (apply (any_end version (ReadBoozmn x) w w1 T); left; exact E).
  pose proof (tidy_wf _ T1) as W1. destruct (read_ready x w w1 (tidy_wf _ T) E) as (v & R). pose proof R as (mn & ns & nb & asy & Ev & Em & En & Eb & Ea & R1 & R2 & R3 & Sc & Pc & R').
  pose proof (returns_exactly version y w1 v ns W1 L V Ev En R2) as X. split.
  - intros H. apply X in H. destruct H as (mn' & Em' & Q1 & Q2 & Q3 & nb' & asy' & F1 & F2 & F3 & F4 & _). rewrite Em in Em'. injection Em' as <-.
    exists ns, mn. do 4 (split; [solve [assumption|lia]|]). split; [lia|]. intros j c Hj.
    assert (Hr : 0 <= j < nb'). { rewrite <- F3. pose proof (wf_N _ W1 N_compute_surfs) as ((_ & _ & Hl) & _). fold (asize (oN (wO w1) N_compute_surfs)) in Hl. rewrite <- Hl. apply znth_Some. eauto. }
    destruct (F4 j Hr) as (z & Hz & Z1). rewrite Hj in Hz. injection Hz as <-. lia.
  - intros (ns' & mn' & En' & Em' & Q1 & Q2 & Q3 & Hc). rewrite En in En'. injection En' as <-. rewrite Em in Em'. injection Em' as <-.
    apply X. exists mn. do 2 (split; [solve [assumption|lia]|]). split; [lia|]. split.
    { destruct Sc as (C1 & C2 & _). unfold asize in *. rewrite C1, C2 in *. lia. }
    destruct (ready_fit v _ R Hc) as (ns' & mn' & X1 & X2 & X3). rewrite En in X1. injection X1 as <-. rewrite Em in X2. now injection X2 as <-.
Qed.
End Read.

Theorem read_write_case (S : Scalar) : exists (w1 : world S), exec "0.0.8" (ReadBoozmn "a.nc") (both S 1 4) = IOk tt w1 /\ wO (both S 1 4) = obj_new S /\ lucky S w1 /\
  oI (wO w1) I_ns_in = Some 3 /\ oI (wO w1) I_mnboz = Some 1 /\ asize (oN (wO w1) N_compute_surfs) = 3 /\
  adata (oN (wO w1) N_compute_surfs) = [Some 0; Some 1; Some 2] /\ exists w2, exec "0.0.8" (Write "c.nc") w1 = IOk tt w2.
Proof.
  assert (H : match read_boozmn S "a.nc" (both S 1 4) with IOk _ w1 => wQ w1 = [] /\ oI (wO w1) I_ns_in = Some 3 /\ oI (wO w1) I_mnboz = Some 1 /\ asize (oN (wO w1) N_compute_surfs) = 3 /\
    adata (oN (wO w1) N_compute_surfs) = [Some 0; Some 1; Some 2] /\ match write_boozmn S "0.0.8" "c.nc" w1 with IOk _ _ => True | _ => False end | _ => False end) by (vm_compute; repeat split).
  cbn [exec]. destruct (read_boozmn S "a.nc" (both S 1 4)) as [[] w1| | |]; try contradiction. destruct H as (H1 & H2 & H3 & H4 & H5 & H6).
  exists w1. split; [reflexivity|]. split; [reflexivity|]. do 5 (split; [assumption|]). destruct (write_boozmn S "0.0.8" "c.nc" w1) as [[] w2| | |]; try contradiction. eauto.
Qed.
(** A file whose bmnc_b is too short is read and written: the new file has numbers that come from nowhere. *)
Theorem gaps_written (S : Scalar) : exists x y (w w1 w2 : world S) f ds l, wO w = obj_new S /\ lucky S w /\ read_boozmn S x w = IOk tt w1 /\ write_boozmn S "0.0.8" y w1 = IOk tt w2 /\
  wFS w2 y = Some (Whole f) /\ holds f "bmnc_b" ds (VDbl l) /\ In None l.
Proof.
  set (w := desk S (obj_new S) (shelf S (cut S 8)) []).
  assert (H : match read_boozmn S "b.nc" w with IOk _ w1 => match write_boozmn S "0.0.8" "c.nc" w1 with IOk _ w2 =>
      match wFS w2 "c.nc" with Some (Whole f) => match find_var f "bmnc_b" with Some u => match vr_val u with VDbl l => In None l | _ => False end | None => False end | _ => False end
    | _ => False end | _ => False end) by (vm_compute; tauto).
  destruct (read_boozmn S "b.nc" w) as [[] w1| | |] eqn:E1; try contradiction. destruct (write_boozmn S "0.0.8" "c.nc" w1) as [[] w2| | |] eqn:E2; try contradiction.
  destruct (wFS w2 "c.nc") as [[f|]|] eqn:E3; try contradiction. destruct (find_var f "bmnc_b") as [u|] eqn:E4; try contradiction.
  destruct (vr_val u) as [|l|] eqn:E5; try contradiction.
  exists "b.nc"%string, "c.nc"%string, w, w1, w2, f, (vr_dims u), l. do 5 (split; [solve [assumption|reflexivity]|]). split; [|exact H]. exists u. auto.
Qed.

(** Property C86: a file written by write_boozmn, seen by read_boozmn. *)
From Coq Require Import ZArith List String Bool Lia.
From Verif Require Import Scalar Prog Model Wp Func Spec Vmec Nc NcModel NcSpec NcVoc NcThms4 NcThms3 ReadAll Stored Written WrittenThm Sound SoundThms WrittenEx NoSurf ReadNeeds WriteExact Overflow.
Import ListNotations.
Local Open Scope Z_scope.

Section Thm.
Context {S : Scalar}.
Notation obj := (obj S).
Notation world := (world S).

Lemma holds_has_ints (f : ncfile S) y ds l : holds f y ds (VInt l) -> has_ints f y.
Proof. intros (u & U & _ & V). exists u. split; [exact U|]. now rewrite V. Qed.
Lemma holds_has_numbers (f : ncfile S) y ds l : holds f y ds (VDbl l) -> has_numbers f y.
Proof. intros (u & U & _ & V). exists u. split; [exact U|]. now rewrite V. Qed.
Lemma holds_I_fits (f : ncfile S) y ds l n : holds f y ds (VInt l) -> Z.of_nat (List.length l) = n -> ~ more_than f y n.
Proof. intros (u & U & _ & V) L (v & V1 & V2). rewrite U in V1. injection V1 as <-. rewrite V in V2. lia. Qed.
Lemma holds_D_fits (f : ncfile S) y ds l n : holds f y ds (VDbl l) -> Z.of_nat (List.length l) = n -> ~ more_than f y n.
Proof. intros (u & U & _ & V) L (v & V1 & V2). rewrite U in V1. injection V1 as <-. rewrite V in V2. lia. Qed.
Lemma holds_first (f : ncfile S) y ds z a : holds f y ds (VInt [Some z]) -> first_int f y a -> a = z.
Proof. intros (u & U & _ & V) (v & V1 & V2). rewrite U in V1. injection V1 as <-. rewrite V in V2. congruence. Qed.
Lemma zeros {T} (x : T) n : 0 <= n -> Z.of_nat (List.length (zrepeat x n)) = n.
Proof. intros H. unfold zrepeat. rewrite repeat_length. lia. Qed.

(** Nothing that is written was never set, and the numbers of the surfaces, increased by 2, are ints. *)
Definition no_gaps (o : obj) : Prop :=
  (forall k, In k [I_nfp; I_mboz; I_nboz] -> oI o k <> None) /\
  (forall k, In k [N_xm_b; N_xn_b; N_compute_surfs] -> set_to (oN o k) (asize (oN o k))) /\
  (forall k, In k [A_iota; A_Boozer_I_all; A_Boozer_G_all; A_phip; A_chi; A_pres; A_phi; A_bmnc_b; A_rmnc_b; A_zmns_b; A_numns_b; A_gmnc_b;
                   A_bmns_b; A_rmns_b; A_zmnc_b; A_numnc_b; A_gmns_b] -> set_to (oA o k) (asize (oA o k))) /\
  (forall j c, znth (adata (oN o N_compute_surfs)) j = Some (Some c) -> INT_MIN <= c <= INT_MAX - 2).
Definition full {T} (l : list (option T)) : Prop := forall j, 0 <= j < Z.of_nat (List.length l) -> exists v, znth l j = Some (Some v).
Lemma prefix_full {T} (a : array T) n l : wf_arr a -> set_to a (asize a) -> prefix a n l -> full l.
Proof.
  intros (_ & _ & W) H (L & t & E) j Hj. destruct (proj2 (znth_Some l j) Hj) as (c & Hc). pose proof (znth_app_l l t j c Hc) as Ha. rewrite <- E in Ha.
  fold (asize a) in W. destruct (H j) as (v & Hv); [rewrite <- W, E, app_length; lia|]. rewrite Ha in Hv. injection Hv as ->. eauto.
Qed.
Lemma full_cons {T} (x : T) l : full l -> full (Some x :: l).
Proof.
  intros H j Hj. cbn [List.length] in Hj. unfold znth. destruct (Z.ltb_spec j 0); [lia|]. destruct (Z.eq_dec j 0) as [->|Hj0]; [exists x; reflexivity|].
  destruct (H (j - 1) ltac:(lia)) as (v & Hv). unfold znth in Hv. destruct (Z.ltb_spec (j - 1) 0); [lia|]. exists v.
  replace (Z.to_nat j) with (Datatypes.S (Z.to_nat (j - 1))) by lia. exact Hv.
Qed.
Lemma full_map {T U} (g : T -> U) l : full l -> full (map (option_map g) l).
Proof.
  intros H j Hj. rewrite map_length in Hj. destruct (H j Hj) as (v & Hv). exists (g v). unfold znth in *. destruct (j <? 0); [discriminate Hv|].
  rewrite (map_nth_error (option_map g) _ _ Hv). reflexivity.
Qed.
Lemma full_all {T} (a : array T) : wf_arr a -> set_to a (asize a) -> full (adata a).
Proof. intros (_ & _ & W) H j Hj. apply H. fold (asize a) in W. lia. Qed.
Lemma full_one {T} (c : option T) : c <> None -> full [c].
Proof. intros N j Hj. cbn in Hj. assert (j = 0) as -> by lia. destruct c as [v|]; [|congruence]. exists v. reflexivity. Qed.
Lemma full_zeros {T} (x : T) n : full (zrepeat (Some x) n).
Proof. intros j Hj. exists x. apply znth_repeat. unfold zrepeat in Hj. rewrite repeat_length in Hj. lia. Qed.

(** Every variable that is read is there with the type and the number of elements that the reader expects. *)
Definition table (o : obj) (f : ncfile S) (mn ns nb : Z) (asy : bool) : Prop :=
  (forall y n, In (y, n) (each 1 ["lasym__logical__"; "nfp_b"; "mboz_b"; "nboz_b"; "mnboz_b"; "ns_b"]%string ++ each mn ["ixm_b"; "ixn_b"]%string ++ each nb ["jlist"]%string) ->
     exists ds l, holds f y ds (VInt l) /\ Z.of_nat (List.length l) = n /\ (no_gaps o -> full l)) /\
  (forall y n, In (y, n) (each ns ["iota_b"; "bvco_b"; "buco_b"; "phi_b"; "phip_b"; "pres_b"]%string ++ each (mn * nb) ["bmnc_b"; "rmnc_b"; "zmns_b"; "pmns_b"; "gmn_b"]%string ++
     (if asy then each (mn * nb) ["bmns_b"; "rmns_b"; "zmnc_b"; "pmnc_b"; "gmns_b"]%string else [])) ->
     exists ds l, holds f y ds (VDbl l) /\ Z.of_nat (List.length l) = n /\ (no_gaps o -> full l)) /\
  (forall l ds, holds f "jlist" ds (VInt l) -> no_gaps o -> forall j c, znth l j = Some (Some c) -> INT_MIN + 2 <= c <= INT_MAX).
Ltac mem := cbn; repeat first [left; reflexivity|right].
Ltac mems H := cbn in H; repeat (destruct H as [H|H]; [injection H as <- <-; mem|]); contradiction H.
Lemma written_table version f (o : obj) : wf_obj o -> written version o f -> exists mn ns nb asy,
  oI o I_mnboz = Some mn /\ oB o B_asym = Some asy /\ asize (oN o N_compute_surfs) = nb /\ oI o I_ns_in = Some ns /\ 0 <= ns /\ dim f "radius" (ns + 1) /\ dim f "comput_surfs" nb /\
  holds f "lasym__logical__" [] (VInt [Some (if asy then 1 else 0)]) /\ holds f "mnboz_b" [] (VInt [Some mn]) /\ table o f mn (ns + 1) nb asy.
Proof.
  intros Hwf (mn & ns & nb & asy & I1 & I2 & I3 & B1 & P1 & P2 & P3 & D1 & D2 & D3 & D4 & D5 & V1 & V2 & V3 & V4 & V5 & V6 & V7 & V8 & V9 & V10 & V11 & V12 & V13 & V14 & V15 & V16).
  assert (Fi : forall k, In k [I_nfp; I_mboz; I_nboz] -> no_gaps o -> full [oI o k]) by (intros k Hk (G & _); apply full_one, G, Hk).
  assert (Fn : forall k n l, In k [N_xm_b; N_xn_b] -> prefix (oN o k) n l -> no_gaps o -> full l).
  { intros k n l Hk Hp (_ & G & _). eapply prefix_full; [apply (wf_N _ Hwf k)|apply G; cbn in *; tauto|exact Hp]. }
  assert (Fa : forall k n l, In k [A_iota; A_Boozer_I_all; A_Boozer_G_all; A_phip; A_chi; A_pres; A_phi; A_bmnc_b; A_rmnc_b; A_zmns_b; A_numns_b; A_gmnc_b;
                   A_bmns_b; A_rmns_b; A_zmnc_b; A_numnc_b; A_gmns_b] -> prefix (oA o k) n l -> no_gaps o -> full l).
  { intros k n l Hk Hp (_ & _ & G & _). eapply prefix_full; [apply (wf_A _ Hwf k)|apply G, Hk|exact Hp]. }
  exists mn, ns, nb, asy. split; [exact I1|]. split; [exact B1|]. split; [exact V8|]. split; [exact I2|]. split; [exact P2|]. split; [exact D1|]. split; [exact D4|]. split; [exact V2|].
  split; [rewrite <- I1; apply V4; cbn; tauto|]. split; [|split].
  - intros y n Hin. cbn in Hin.
    destruct Hin as [H|[H|[H|[H|[H|[H|[H|[H|[H|[]]]]]]]]]]; injection H as <- <-.
    + do 2 eexists. split; [exact V2|]. split; [reflexivity|]. intros _. now apply full_one.
    + do 2 eexists. split; [apply (V4 "nfp_b"%string I_nfp); cbn; tauto|]. split; [reflexivity|]. apply Fi. cbn; tauto.
    + do 2 eexists. split; [apply (V4 "mboz_b"%string I_mboz); cbn; tauto|]. split; [reflexivity|]. apply Fi. cbn; tauto.
    + do 2 eexists. split; [apply (V4 "nboz_b"%string I_nboz); cbn; tauto|]. split; [reflexivity|]. apply Fi. cbn; tauto.
    + do 2 eexists. split; [apply (V4 "mnboz_b"%string I_mnboz); cbn; tauto|]. split; [reflexivity|]. intros _. apply full_one. congruence.
    + do 2 eexists. split; [exact V3|]. split; [reflexivity|]. intros _. now apply full_one.
    + destruct (V9 "ixm_b"%string N_xm_b ltac:(cbn; tauto)) as (l & Hp & Hl). do 2 eexists. split; [exact Hl|]. split; [exact (proj1 Hp)|]. eapply Fn; [|exact Hp]. cbn; tauto.
    + destruct (V9 "ixn_b"%string N_xn_b ltac:(cbn; tauto)) as (l & Hp & Hl). do 2 eexists. split; [exact Hl|]. split; [exact (proj1 Hp)|]. eapply Fn; [|exact Hp]. cbn; tauto.
    + pose proof (wf_N _ Hwf N_compute_surfs) as (Wc & _). do 2 eexists. split; [exact V7|]. split.
      * rewrite map_length. destruct Wc as (_ & _ & Hl). fold (asize (oN o N_compute_surfs)) in Hl. lia.
      * intros (_ & G & _). apply full_map, full_all; [exact Wc|]. apply G. cbn; tauto.
  - assert (R : forall y k, In (y, k) radial -> exists ds l, holds f y ds (VDbl l) /\ Z.of_nat (List.length l) = ns + 1 /\ (no_gaps o -> full l)).
    { intros y k Hin. destruct (V10 y k Hin) as (l & Hp & Hl). do 2 eexists. split; [exact Hl|]. split; [destruct Hp as (L & _); cbn [List.length]; lia|].
      intros G. apply full_cons. eapply Fa; [|exact Hp|exact G]. mems Hin. }
    assert (X : forall y, In y ["phi_b"; "phip_b"; "pres_b"]%string -> exists ds l, holds f y ds (VDbl l) /\ Z.of_nat (List.length l) = ns + 1 /\ (no_gaps o -> full l)).
    { intros y Hin. destruct (Z.eq_dec (asize (oA o A_phip)) 0) as [Z0|Z0].
      - do 2 eexists. split; [apply (V11 Z0); cbn in Hin |- *; tauto|]. split; [apply zeros; lia|]. intros _. apply full_zeros.
      - destruct (V12 Z0) as (_ & (c & l & Hp & Hl) & Vf). destruct Hin as [<-|[<-|[<-|[]]]].
        + destruct (Vf "phi_b"%string A_phi ltac:(cbn; tauto)) as (l' & Hp' & Hl'). do 2 eexists. split; [exact Hl'|]. split; [exact (proj1 Hp')|]. eapply Fa; [|exact Hp']. mem.
        + do 2 eexists. split; [exact Hl|]. split; [exact (proj1 Hp)|]. intros G.
          pose proof (Fa A_phip _ _ ltac:(mem) Hp G) as Fu. apply full_cons. intros j Hj. destruct (Fu (j + 1)) as (v & Hv); [cbn [List.length]; lia|]. exists v.
          unfold znth in *. destruct (Z.ltb_spec j 0); [lia|]. destruct (Z.ltb_spec (j + 1) 0); [lia|]. replace (Z.to_nat (j + 1)) with (Datatypes.S (Z.to_nat j)) in Hv by lia. exact Hv.
        + destruct (Vf "pres_b"%string A_pres ltac:(cbn; tauto)) as (l' & Hp' & Hl'). do 2 eexists. split; [exact Hl'|]. split; [exact (proj1 Hp')|]. eapply Fa; [|exact Hp']. mem. }
    assert (M : forall y k, In (y, k) booz_matrices -> exists ds l, holds f y ds (VDbl l) /\ Z.of_nat (List.length l) = mn * nb /\ (no_gaps o -> full l)).
    { intros y k Hin. destruct (V13 y k Hin) as (l & Hp & Hl). do 2 eexists. split; [exact Hl|]. split; [destruct Hp as (L & _); lia|]. eapply Fa; [|exact Hp]. mems Hin. }
    assert (Q : exists ds l, holds f "pmns_b" ds (VDbl l) /\ Z.of_nat (List.length l) = mn * nb /\ (no_gaps o -> full l)).
    { destruct V14 as (l & Hp & Hl). do 2 eexists. split; [exact Hl|]. split; [rewrite map_length; destruct Hp as (L & _); lia|]. intros G. apply full_map. eapply Fa; [|exact Hp|exact G]. mem. }
    intros y n Hin. rewrite !in_app_iff in Hin. destruct Hin as [Hin|[Hin|Hin]].
    + cbn in Hin. destruct Hin as [H|[H|[H|[H|[H|[H|[]]]]]]]; injection H as <- <-;
        first [apply X; cbn; tauto|eapply R; cbn; eauto].
    + cbn in Hin. destruct Hin as [H|[H|[H|[H|[H|[]]]]]]; injection H as <- <-; first [exact Q|eapply M; cbn; eauto].
    + destruct asy; [|contradiction Hin]. destruct (V15 eq_refl) as (Ma & l & Hp & Hl). cbn in Hin.
      assert (M' : forall y k, In (y, k) booz_matrices_asym -> exists ds l, holds f y ds (VDbl l) /\ Z.of_nat (List.length l) = mn * nb /\ (no_gaps o -> full l)).
      { intros y0 k Hk. destruct (Ma y0 k Hk) as (l' & Hp' & Hl'). do 2 eexists. split; [exact Hl'|]. split; [destruct Hp' as (L' & _); lia|]. eapply Fa; [|exact Hp'].
        mems Hk. }
      assert (Q' : exists ds l, holds f "pmnc_b" ds (VDbl l) /\ Z.of_nat (List.length l) = mn * nb /\ (no_gaps o -> full l)).
      { do 2 eexists. split; [exact Hl|]. split; [rewrite map_length; destruct Hp as (L & _); lia|]. intros G. apply full_map. eapply Fa; [|exact Hp|exact G]. mem. }
      destruct Hin as [H|[H|[H|[H|[H|[]]]]]]; injection H as <- <-; first [exact Q'|eapply M'; cbn; eauto].
  - intros l ds (u & U & _ & V) G j c Hj. destruct V7 as (u' & U' & _ & V'). rewrite U in U'. injection U' as <-. rewrite V in V'. injection V' as ->.
    unfold znth in Hj. destruct (j <? 0) eqn:Ej; [discriminate Hj|]. rewrite nth_error_map in Hj.
    destruct (nth_error (adata (oN o N_compute_surfs)) (Z.to_nat j)) as [[z|]|] eqn:Ez; cbn in Hj; try discriminate Hj. injection Hj as <-.
    destruct G as (_ & _ & _ & G). specialize (G j z). unfold znth in G. rewrite Ej in G. specialize (G Ez). lia.
Qed.
Theorem written_fits version x (w w' : world) : wf_obj (wO w) -> write_boozmn S version x w = IOk tt w' ->
  exists f, wFS w' x = Some (Whole f) /\ booz_readable f /\
  exists a mn ns nb, first_int f "lasym__logical__" a /\ first_int f "mnboz_b" mn /\ dim f "radius" ns /\ dim f "comput_surfs" nb /\
  forall y n, In (y, n) (booz_room mn ns nb (negb (a =? 0))) -> ~ more_than f y n.
Proof.
  intros Wf E. destruct (boozmn_written version x w w' Wf E) as (f & Hf & W). exists f. split; [exact Hf|].
  destruct (written_table _ _ _ Wf W) as (mn & ns & nb & asy & I1 & B1 & _ & _ & _ & D1 & D2 & V1 & V2 & T1 & T2 & _). split.
  - split.
    + intros y Hy. enough (H : exists n ds l, holds f y ds (VInt l) /\ Z.of_nat (List.length l) = n /\ (no_gaps (wO w) -> full l)) by (destruct H as (n & ds & l & H & _); eapply holds_has_ints; exact H).
      cbn in Hy. repeat (destruct Hy as [<-|Hy]; [eexists; apply T1; cbn; tauto|]). contradiction Hy.
    + intros y Hy. enough (H : exists n ds l, holds f y ds (VDbl l) /\ Z.of_nat (List.length l) = n /\ (no_gaps (wO w) -> full l)) by (destruct H as (n & ds & l & H & _); eapply holds_has_numbers; exact H).
      cbn in Hy. repeat (destruct Hy as [<-|Hy]; [eexists; apply T2; rewrite !in_app_iff; cbn; tauto|]). contradiction Hy.
    + eauto.
    + eauto.
    + intros a Ha Na y Hy. pose proof (holds_first _ _ _ _ _ V1 Ha) as ->. destruct asy; [|congruence].
      enough (H : exists n ds l, holds f y ds (VDbl l) /\ Z.of_nat (List.length l) = n /\ (no_gaps (wO w) -> full l)) by (destruct H as (n & ds & l & H & _); eapply holds_has_numbers; exact H).
      cbn in Hy. repeat (destruct Hy as [<-|Hy]; [eexists; apply T2; rewrite !in_app_iff; cbn; tauto|]). contradiction Hy.
  - exists (if asy then 1 else 0), mn, (ns + 1), nb.
    split; [destruct V1 as (u & U & _ & V); exists u; split; [exact U|]; now rewrite V|].
    split; [destruct V2 as (u & U & _ & V); exists u; split; [exact U|]; now rewrite V|]. split; [exact D1|]. split; [exact D2|].
    replace (negb ((if asy then 1 else 0) =? 0)) with asy by now destruct asy.
    intros y n Hin. unfold booz_room in Hin. rewrite !in_app_iff in Hin.
    assert (C : In (y, n) (each 1 ["lasym__logical__"; "nfp_b"; "mboz_b"; "nboz_b"; "mnboz_b"; "ns_b"]%string ++ each mn ["ixm_b"; "ixn_b"]%string ++ each nb ["jlist"]%string) \/
      In (y, n) (each (ns + 1) ["iota_b"; "bvco_b"; "buco_b"; "phi_b"; "phip_b"; "pres_b"]%string ++ each (mn * nb) ["bmnc_b"; "rmnc_b"; "zmns_b"; "pmns_b"; "gmn_b"]%string ++
        (if asy then each (mn * nb) ["bmns_b"; "rmns_b"; "zmnc_b"; "pmnc_b"; "gmns_b"]%string else []))) by (rewrite !in_app_iff; tauto).
    destruct C as [C|C]; [destruct (T1 _ _ C) as (ds & l & H & L & _); eapply holds_I_fits; eassumption|destruct (T2 _ _ C) as (ds & l & H & L & _); eapply holds_D_fits; eassumption].
Qed.
Theorem never_refused version x (w w1 v : world) : wf_obj (wO w) -> wf_obj (wO v) -> write_boozmn S version x w = IOk tt w1 -> wFS v x = wFS w1 x -> lucky S v ->
  (exists v1, read_boozmn S x v = IOk tt v1) \/ (exists why, read_boozmn S x v = IUB why).
Proof.
  intros W1 W2 E Hx L. destruct (written_fits version x w w1 W1 E) as (f & Hf & Hr & _). rewrite Hf in Hx. exact (booz_calm x f v W2 L Hx Hr).
Qed.

(** The data in a file *)
Definition vi (f : ncfile S) (y : string) (j : Z) : Z :=
  match find_var f y with Some u => match vr_val u with VInt l => match znth l j with Some (Some z) => z | _ => 0 end | _ => 0 end | None => 0 end.
Definition vd (f : ncfile S) (y : string) (j : Z) : F S :=
  match find_var f y with Some u => match vr_val u with VDbl l => match znth l j with Some (Some z) => z | _ => fofZ S 0 end | _ => fofZ S 0 end | None => fofZ S 0 end.
Lemma vi_is f y ds l j : holds f y ds (VInt l) -> full l -> 0 <= j < Z.of_nat (List.length l) -> znth l j = Some (Some (vi f y j)).
Proof. intros (u & U & _ & V) Fu Hj. destruct (Fu j Hj) as (v & Hv). unfold vi. rewrite U, V, Hv. reflexivity. Qed.
Lemma vd_is f y ds l j : holds f y ds (VDbl l) -> full l -> 0 <= j < Z.of_nat (List.length l) -> znth l j = Some (Some (vd f y j)).
Proof. intros (u & U & _ & V) Fu Hj. destruct (Fu j Hj) as (v & Hv). unfold vd. rewrite U, V, Hv. reflexivity. Qed.
Lemma h_ints f y n : (exists ds l, holds f y ds (VInt l) /\ Z.of_nat (List.length l) = n /\ full l) -> holds_ints S f y n (vi f y).
Proof.
  intros (ds & l & H & L & Fu) v Hv. pose proof H as (u & U & _ & V). rewrite U in Hv. injection Hv as <-. exists l. rewrite V. split; [reflexivity|].
  split; [reflexivity|]. split; [reflexivity|]. split; [exact L|]. intros i Hi. apply (vi_is f y ds l i H Fu). rewrite L. exact Hi.
Qed.
Lemma h_int f y : (exists ds l, holds f y ds (VInt l) /\ Z.of_nat (List.length l) = 1 /\ full l) -> holds_int S f y (vi f y 0).
Proof.
  intros H v Hv. destruct (h_ints f y 1 H v Hv) as (l & E & L1 & L2 & L3 & L4). exists l. split; [exact E|]. do 3 (split; [assumption|]). intros i Hi.
  rewrite (L4 i Hi). now replace i with 0 by lia.
Qed.
Lemma h_vec f y n : (exists ds l, holds f y ds (VDbl l) /\ Z.of_nat (List.length l) = n /\ full l) -> holds_vec S f y n (vd f y).
Proof.
  intros (ds & l & H & L & Fu) v Hv. pose proof H as (u & U & _ & V). rewrite U in Hv. injection Hv as <-. exists l. rewrite V. split; [reflexivity|].
  split; [reflexivity|]. split; [reflexivity|]. split; [exact L|]. intros i Hi. apply (vd_is f y ds l i H Fu). rewrite L. exact Hi.
Qed.
Lemma h_mat f y r c : 0 <= r -> 0 <= c -> (exists ds l, holds f y ds (VDbl l) /\ Z.of_nat (List.length l) = r * c /\ full l) -> holds_mat S f y r c (fun i j => vd f y (i + j * r)).
Proof.
  intros Hr Hc (ds & l & H & L & Fu) v Hv. pose proof H as (u & U & _ & V). rewrite U in Hv. injection Hv as <-. exists l. rewrite V. split; [reflexivity|].
  split; [exact Hr|]. split; [exact Hc|]. split; [reflexivity|]. split; [reflexivity|]. split; [exact L|]. intros i j Hi Hj. apply (vd_is f y ds l _ H Fu). rewrite L. exact (flat_range r c i j Hi Hj).
Qed.
Definition named (k : afield) : string :=
  match k with A_bmnc_b => "bmnc_b" | A_rmnc_b => "rmnc_b" | A_zmns_b => "zmns_b" | A_numns_b => "pmns_b" | A_gmnc_b => "gmn_b"
  | A_bmns_b => "bmns_b" | A_rmns_b => "rmns_b" | A_zmnc_b => "zmnc_b" | A_numnc_b => "pmnc_b" | A_gmns_b => "gmns_b" | _ => "" end.
Definition data_of (f : ncfile S) (la mn r nb : Z) : bdat S :=
  mkBdat S la (vi f "nfp_b" 0) (vi f "mboz_b" 0) (vi f "nboz_b" 0) mn r nb (vi f "ns_b" 0) (vi f "ixm_b") (vi f "ixn_b") (vi f "jlist")
    (vd f "iota_b") (vd f "bvco_b") (vd f "buco_b") (vd f "phi_b") (vd f "phip_b") (vd f "chi_b") (vd f "pres_b") (fun k i j => vd f (named k) (i + j * mn)).
Theorem read_again version x (w w1 v : world) : wf_obj (wO w) -> no_gaps (wO w) -> write_boozmn S version x w = IOk tt w1 ->
  usable (wO v) -> open_ok v -> wFS v x = wFS w1 x -> lucky S v -> exists v1, read_boozmn S x v = IOk tt v1.
Proof.
  intros Wf G E Uv Ov Hx L. destruct (boozmn_written version x w w1 Wf E) as (f & Hf & W). rewrite Hf in Hx.
  destruct (write_needs _ _ _ _ E) as (ns' & mn' & E1 & E2 & R1 & R2 & R3).
  destruct (written_table _ _ _ Wf W) as (mn & ns & nb & asy & I1 & B1 & N1 & I2 & P2 & D1 & D2 & V1 & V2 & T1 & T2 & T3).
  rewrite I2 in E1. injection E1 as <-. rewrite I1 in E2. injection E2 as <-. rewrite N1 in R3.
  assert (Ti : forall y n, In (y, n) (each 1 ["lasym__logical__"; "nfp_b"; "mboz_b"; "nboz_b"; "mnboz_b"; "ns_b"]%string ++ each mn ["ixm_b"; "ixn_b"]%string ++ each nb ["jlist"]%string) ->
     exists ds l, holds f y ds (VInt l) /\ Z.of_nat (List.length l) = n /\ full l).
  { intros y n H. destruct (T1 y n H) as (ds & l & H1 & H2 & H3). exists ds, l. auto. }
  assert (Td : forall y n, In (y, n) (each (ns + 1) ["iota_b"; "bvco_b"; "buco_b"; "phi_b"; "phip_b"; "pres_b"]%string ++ each (mn * nb) ["bmnc_b"; "rmnc_b"; "zmns_b"; "pmns_b"; "gmn_b"]%string ++
     (if asy then each (mn * nb) ["bmns_b"; "rmns_b"; "zmnc_b"; "pmnc_b"; "gmns_b"]%string else [])) ->
     exists ds l, holds f y ds (VDbl l) /\ Z.of_nat (List.length l) = n /\ full l).
  { intros y n H. destruct (T2 y n H) as (ds & l & H1 & H2 & H3). exists ds, l. auto. }
  assert (Cv : exists ds l, holds f "chi_b" ds (VDbl l) /\ Z.of_nat (List.length l) = ns + 1 /\ full l).
  { destruct W as (mn' & ns' & nb' & asy' & J1 & J2 & J3 & B1' & Q1 & Q2 & Q3 & _ & _ & _ & _ & _ & _ & _ & _ & _ & _ & _ & _ & _ & _ & _ & V11 & V12 & _).
    rewrite I2 in J2. injection J2 as <-. destruct (Z.eq_dec (asize (oA (wO w) A_phip)) 0) as [Z0|Z0].
    - do 2 eexists. split; [apply (V11 Z0); mem|]. split; [apply zeros; lia|apply full_zeros].
    - destruct (V12 Z0) as (_ & _ & Vf). destruct (Vf "chi_b"%string A_chi ltac:(mem)) as (l & Hp & Hl). do 2 eexists. split; [exact Hl|]. split; [exact (proj1 Hp)|].
      destruct G as (_ & _ & G & _). eapply prefix_full; [apply (wf_A _ Wf A_chi)|apply G; mem|exact Hp]. }
  set (d := data_of f (if asy then 1 else 0) mn (ns + 1) nb).
  assert (Ha : b_asym S d = asy) by (unfold b_asym; destruct asy; reflexivity).
  assert (One : forall y z, holds f y [] (VInt [Some z]) -> holds_int S f y z).
  { intros y z (u & U & _ & V) u' U'. rewrite U in U'. injection U' as <-. exists [Some z]. rewrite V. split; [reflexivity|]. split; [reflexivity|]. split; [reflexivity|]. split; [reflexivity|].
    intros i Hi. now replace i with 0 by lia. }
  assert (Bf : bfile S f d).
  { split.
    1: exact (One _ _ V1).
    1, 2, 3: apply h_int, Ti; mem.
    1: exact (One _ _ V2).
    1: apply h_int, Ti; mem.
    1, 2, 3: apply h_ints, Ti; mem.
    1: intros m Hm; unfold dim in D1; cbn; congruence.
    1: intros m Hm; unfold dim in D2; cbn; congruence.
    1, 2, 3, 4, 5: apply h_vec, Td; apply in_or_app; left; mem.
    1: apply h_vec, Cv.
    1: apply h_vec, Td; apply in_or_app; left; mem.
    - intros y m Hin. assert (y = named m /\ In (y, mn * nb) (each (mn * nb) ["bmnc_b"; "rmnc_b"; "zmns_b"; "pmns_b"; "gmn_b"]%string)) as (-> & Hi).
      { cbn in Hin. repeat (destruct Hin as [Hin|Hin]; [injection Hin as <- <-; split; [reflexivity|mem]|]). contradiction Hin. }
      apply (h_mat f (named m) mn nb); [lia|lia|]. apply Td. apply in_or_app. right. apply in_or_app. left. exact Hi.
    - rewrite Ha. intros -> y m Hin. assert (y = named m /\ In (y, mn * nb) (each (mn * nb) ["bmns_b"; "rmns_b"; "zmnc_b"; "pmnc_b"; "gmns_b"]%string)) as (-> & Hi).
      { cbn in Hin. repeat (destruct Hin as [Hin|Hin]; [injection Hin as <- <-; split; [reflexivity|mem]|]). contradiction Hin. }
      apply (h_mat f (named m) mn nb); [lia|lia|]. apply Td. apply in_or_app. right. apply in_or_app. right. exact Hi. }
  assert (Bs : bsane S d).
  { split; cbn [b_mnboz b_radius b_nsurf d data_of]; [unfold INT_MAX in *; lia..|]. intros j Hj. cbn in Hj |- *.
    destruct (Ti "jlist"%string nb ltac:(mem)) as (ds & l & H1 & H2 & H3). apply (T3 l ds H1 G j). apply (vi_is f _ ds l j H1 H3). rewrite H2. exact Hj. }
  assert (Bc : bcomplete S f d).
  { assert (Pi : forall y n, (exists ds l, holds f y ds (VInt l) /\ Z.of_nat (List.length l) = n /\ full l) -> present S f y) by (intros y n (ds & l & (u & U & _) & _); unfold present; congruence).
    assert (Pd : forall y n, (exists ds l, holds f y ds (VDbl l) /\ Z.of_nat (List.length l) = n /\ full l) -> present S f y) by (intros y n (ds & l & (u & U & _) & _); unfold present; congruence).
    split.
    - rewrite Ha. intros y Hy. unfold bneed_vars in Hy. rewrite !in_app_iff in Hy. destruct Hy as [Hy|[Hy|Hy]].
      + cbn in Hy. repeat (destruct Hy as [<-|Hy]; [first [solve [eapply Pi, Ti; mem]|solve [eapply Pd, Td; apply in_or_app; left; mem]]|]). contradiction Hy.
      + cbn in Hy. repeat (destruct Hy as [<-|Hy]; [eapply Pd, Td; apply in_or_app; right; apply in_or_app; left; mem|]). contradiction Hy.
      + destruct asy; [|contradiction Hy]. cbn in Hy. repeat (destruct Hy as [<-|Hy]; [eapply Pd, Td; apply in_or_app; right; apply in_or_app; right; mem|]). contradiction Hy.
    - intros y [<-|[<-|[]]]; unfold has_dim; unfold dim in *; congruence. }
  destruct (read_complete S f d x v Bf Bs Hx Ov Uv) as (_ & H & _). destruct (H L Bc) as (v1 & H1 & _). eauto.
Qed.
End Thm.

(** Objects with and without the fluxes, symmetric and not, meet the hypotheses. *)
Definition given {T} (c : option T) : bool := match c with Some _ => true | None => false end.
Lemma given_set {T} (a : array T) : wf_arr a -> forallb given (adata a) = true -> set_to a (asize a).
Proof.
  intros (_ & _ & W) H j Hj. fold (asize a) in W. destruct (proj2 (znth_Some (adata a) j) ltac:(lia)) as (c & Hc). rewrite forallb_forall in H.
  assert (Hi : In c (adata a)) by (unfold znth in Hc; destruct (j <? 0); [discriminate Hc|eapply nth_error_In; exact Hc]).
  specialize (H c Hi). destruct c as [v|]; [eauto|discriminate H].
Qed.
Definition dense (S : Scalar) (o : obj S) : bool :=
  forallb (fun k => given (oI o k)) [I_nfp; I_mboz; I_nboz] && forallb (fun k => forallb given (adata (oN o k))) [N_xm_b; N_xn_b; N_compute_surfs] &&
  forallb (fun k => forallb given (adata (oA o k))) [A_iota; A_Boozer_I_all; A_Boozer_G_all; A_phip; A_chi; A_pres; A_phi; A_bmnc_b; A_rmnc_b; A_zmns_b; A_numns_b; A_gmnc_b;
                   A_bmns_b; A_rmns_b; A_zmnc_b; A_numnc_b; A_gmns_b].
Lemma dense_no_gaps (S : Scalar) (o : obj S) : wf_obj o -> dense S o = true -> adata (oN o N_compute_surfs) = [Some 0; Some 1; Some 2] -> no_gaps o.
Proof.
  intros W D C. unfold dense in D. apply andb_prop in D. destruct D as (D & D3). apply andb_prop in D. destruct D as (D1 & D2). rewrite forallb_forall in D1, D2, D3. split; [|split; [|split]].
  - intros k Hk. specialize (D1 k Hk). destruct (oI o k); [discriminate|discriminate D1].
  - intros k Hk. apply given_set; [apply (wf_N _ W k)|exact (D2 k Hk)].
  - intros k Hk. apply given_set; [apply (wf_A _ W k)|exact (D3 k Hk)].
  - intros j c Hj. rewrite C in Hj. assert (Hr : 0 <= j < 3) by (apply (znth_Some [Some 0; Some 1; Some 2] j); eauto).
    assert (E : j = 0 \/ j = 1 \/ j = 2) by lia. destruct E as [->|[->| ->]]; cbn in Hj; injection Hj as <-; unfold INT_MIN, INT_MAX; lia.
Qed.
Theorem again_case (S : Scalar) asy fl : (asy = true -> fl = true) -> exists x (w w1 v : world S),
  wf_obj (wO w) /\ no_gaps (wO w) /\ oB (wO w) B_asym = Some asy /\ (fl = true <-> asize (oA (wO w) A_phip) <> 0) /\
  write_boozmn S "0.0.8" x w = IOk tt w1 /\ usable (wO v) /\ open_ok v /\ wFS v x = wFS w1 x /\ lucky S v.
Proof.
  intros Hc.
  destruct (three_steps S (fun w => match read_boozmn S "a.nc" w with IOk _ w1 => if fl then IOk tt w1 else read_wout S "wout.nc" false w1 | r => r end)
    (write_boozmn S "0.0.8" "c.nc") (fun w => IOk tt w) (both S (if asy then 1 else 0) 4) (fun w1 w2 w3 => oB (wO w1) B_asym = Some asy /\ (asize (oA (wO w1) A_phip) =? 0) = negb fl /\
       dense S (wO w1) = true /\ adata (oN (wO w1) N_compute_surfs) = [Some 0; Some 1; Some 2] /\ wOpen w2 = [] /\ wQ w2 = [])) as (w1 & w2 & w3 & E1 & E2 & E3 & H1 & H2 & H3 & H4 & H5 & H6).
  { destruct asy, fl; try discriminate (Hc eq_refl); vm_compute; auto 10. }
  assert (W : wf_obj (wO w1)).
  { destruct (read_boozmn S "a.nc" (both S (if asy then 1 else 0) 4)) as [[] w0| | |] eqn:E0; try discriminate E1.
    assert (W0 : tidy (wO w0)) by (pose proof (tends_boozmn "a.nc" (both S (if asy then 1 else 0) 4) tidy_new) as G; rewrite E0 in G; apply G).
    apply tidy_wf. destruct fl; [now injection E1 as <-|]. pose proof (tends_wout "wout.nc" false w0 W0) as G. rewrite E1 in G. apply G. }
  exists "c.nc"%string, w1, w2, (setO w2 (obj_new S)). split; [exact W|]. split; [now apply dense_no_gaps|]. split; [exact H1|]. split.
  { destruct (Z.eqb_spec (asize (oA (wO w1) A_phip)) 0) as [Z0|Z0]; destruct fl; cbn in H2; try discriminate H2; split; intros; congruence. }
  split; [exact E2|]. split; [split; [exact (tidy_wf _ tidy_new)|eexists; reflexivity]|]. split; [unfold open_ok; cbn; rewrite H5; constructor|]. split; [reflexivity|exact H6].
Qed.

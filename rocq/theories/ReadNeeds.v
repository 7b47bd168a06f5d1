(** C83: what a reading of a boozmn file needs. *)
From Coq Require Import ZArith List String Bool Lia QArith.
From Verif Require Import Scalar Prog Model Wp Func FuncExt Spec Vmec Nc NcModel NcSpec NcVoc Py Frame FrameThms ReadAll Stored.
Import ListNotations.
Local Open Scope Z_scope.
Local Open Scope io_scope.

Section Read.
Context {S : Scalar}.
Notation obj := (obj S).
Notation world := (world S).
Notation io := (io S).

Lemma go_also h f K {A} (m : io A) K' Q (Q' : A -> Prop) : go h f K m K' Q -> (forall w a w', inv K (wO w) -> m w = IOk a w' -> Q' a) ->
  go h f K m K' (fun a => Q a /\ Q' a).
Proof. intros H G w Hw Hi. specialize (H w Hw Hi). specialize (G w). destruct (m w) as [a w'| | |]; auto. destruct H as (H1 & H2 & H3). split; [exact H1|]. split; [exact H2|]. split; [exact H3|]. now apply (G a w'). Qed.
Lemma rget_room {T} (conv : ncval S -> option (list (option T) * bool)) h x buf store w l w' : rget S conv h x buf store w = IOk l w' -> buf <> [].
Proof.
  intros E ->. unfold rget in E. apply bind_ok in E. destruct E as (c & w1 & _ & E). apply bind_ok in E. destruct E as (? & w2 & _ & E).
  apply bind_ok in E. destruct E as (? & w3 & E & _). discriminate E.
Qed.
Lemma go_ints1 h f K x k n : (forall a, kN K k a -> shaped a n 1) ->
  go h f K (get_ints S h x k) (fun _ => onN K k (fun a => shaped a n 1 /\ exists l, integers f x l /\ begins l a)) (fun _ => True /\ 1 <= n).
Proof.
  intros Hk. apply (go_also h f K _ _ anything (fun _ => 1 <= n)); [now apply go_get_ints|]. intros w a w' Hi E. unfold get_ints in E.
  apply bind_ok in E. destruct E as (o & w1 & E1 & E). injection E1 as <- <-. apply bind_ok in E. destruct E as (l & w2 & E & _). apply rget_room in E.
  destruct (Hk _ (proj1 (proj2 Hi) k)) as (S1 & S2 & S3). destruct (adata (oN (wO w) k)); [contradiction|]. cbn in S3. lia.
Qed.
Lemma go_local1 h f K x a n : adata a = zrepeat None n -> go h f K (get_local S h x a) (fun _ => K)
  (fun b => (exists l, numbers f x l /\ (List.length l <= List.length (adata a))%nat /\ adata b = l ++ skipn (List.length l) (adata a)) /\ 1 <= n).
Proof.
  intros Ha. apply (go_also h f K _ (fun _ => K) _ (fun _ => 1 <= n)); [apply go_get_local|]. intros w b w' _ E. unfold get_local in E.
  apply bind_ok in E. destruct E as (l & w2 & E & _). apply rget_room in E. rewrite Ha in E. unfold zrepeat in E.
  destruct (Z.to_nat n) eqn:En; [contradiction|]. lia.
Qed.

Ltac known_shape := let H := fresh in intros ? H; cbn in H; first [exact H|exact (proj1 H)].
Ltac rule := lazymatch goal with
  | |- go _ _ _ (get_int _ _ _ _) _ _ => apply go_get_int
  | |- go _ _ _ (get_ints _ _ _ _) _ _ => eapply go_ints1; known_shape
  | |- go _ _ _ (get_arr _ _ _ _) _ _ => eapply go_get_arr; known_shape
  | |- go _ _ _ (itry _) _ _ => eapply go_try_arr; known_shape
  | |- go _ _ _ (get_local _ _ _ _) _ _ => eapply go_local1; eassumption
  | |- go _ _ _ (get_local_int _ _ _) _ _ => apply go_get_local_int
  | |- go _ _ _ (getdim _ _ _) _ _ => apply go_getdim
  | |- go _ _ _ (val _ _) _ _ => apply go_val
  | |- go _ _ _ (theobj _) _ _ => apply go_theobj
  | |- go _ _ _ (resize_ints _ _ _) _ _ => apply go_resize_ints; known_shape
  | |- go _ _ _ (resize_arr _ _ _ _) _ _ => apply go_resize_arr; known_shape
  | |- go _ _ _ (new_vec _ _) _ _ => apply go_new_vec
  | |- go _ _ _ (chatter _ _) _ _ => apply go_pure; sp; first [apply spares_elems|apply spares_elems_n|idtac]
  | |- go _ _ _ (lift (getb B_asym)) _ _ => apply go_getb
  | |- go _ _ _ (lift (geti _)) _ _ => apply go_geti
  | |- go _ _ _ (lift (seti _ _)) _ _ => apply go_seti
  | |- go _ _ _ (lift (setf _ _)) _ _ => apply go_setf
  | |- go _ _ _ (lift (int_ _)) _ _ => apply go_int
  | |- go _ _ _ (lift (isub _ _)) _ _ => apply go_isub
  | |- go _ _ _ (lift (iadd _ _)) _ _ => apply go_iadd
  | |- go _ _ _ (lift (getv _ _)) _ _ => apply go_pure; sp
  | |- go _ _ _ (lift (fill_vec _ _ _ (fun j => vget _ (j + 1)))) _ _ => apply go_copy; known_shape
  | |- go _ _ _ (lift (fill_vec _ A_s_b _ _)) _ _ => match goal with Hcs : shaped ?cs _ 1 /\ _ |- _ => apply (go_s_b _ _ _ _ cs); known_shape end
  | |- go _ _ _ (lift (bind (getarr _) (neg_arr _))) _ _ => eapply go_neg; let H := fresh in intros ? H; cbn in H; exact H
  end.
Ltac f1 := eapply fin_bind; [rule|let H := fresh in intros ? H; cbn beta in H |- *].
Ltac r1 := eapply go_bind; [rule|let H := fresh in intros ? H; cbn beta in H |- *].


Definition read_claim (f : ncfile S) (o : obj) : Prop := exists mn ns nb, oI o I_mnboz = Some mn /\ oI o I_ns_in = Some ns /\ oI o I_ns_b = Some nb /\
  dim f "radius" (ns + 1) /\ dim f "comput_surfs" nb /\ 1 <= mn /\ 0 <= ns /\ 1 <= nb.
Ltac ends HI := match goal with H : ?x = _ + 1 |- _ => subst x end;
  eexists; eexists; eexists; split; [exact (proj2 (HI I_mnboz))|]; split; [exact (HI I_ns_in)|]; split; [exact (HI I_ns_b)|];
  split; [match goal with H : dim ?f "radius" ?n |- dim ?f "radius" ?m => replace m with n by lia; exact H end|];
  split; [match goal with H : dim ?f "comput_surfs" ?n |- dim ?f "comput_surfs" ?m => replace m with n by lia; exact H end|]; repeat split; lia.
Theorem read_needs x (w w' : world) : wf_obj (wO w) -> read_boozmn S x w = IOk tt w' -> exists f, wFS w x = Some (Whole f) /\ read_claim f (wO w').
Proof.
  intros Wf E. unfold read_boozmn in E. apply bind_ok in E. destruct E as ([] & w1 & E1 & E).
  assert (Hw1 : wO w1 = wO w /\ wFS w1 = wFS w).
  { unfold chatter, lift in E1. cbn in E1. destruct (oI (wO w) I_verbose) as [v|]; [|discriminate E1]. destruct (0 <? v); injection E1 as <-; auto. }
  destruct Hw1 as (O1 & F1). apply bind_ok in E. destruct E as (h & w2 & E2 & E). apply reader_opens in E2.
  destruct E2 as (f & X2 & H2 & O2 & _). exists f. split; [congruence|].
  assert (Hi : inv start (wO w2)).
  { rewrite O2, O1. destruct Wf as [WN WA]. repeat split; try apply WN; try apply WA. }
  clear E1 O1 F1 X2 O2 Wf w w1. revert w2 H2 Hi E.
  match goal with |- forall w2, _ -> _ -> ?m w2 = _ -> _ => enough (G : fin h f start m (read_claim f)) end.
  { intros w2 H2 Hi E. specialize (G w2 H2 Hi). rewrite E in G. exact G. }
  do 2 f1. eapply fin_bind; [apply go_setb|]. intros ? ?. cbn beta.
  repeat f1.
  eapply fin_bind.
  { match goal with Ho : inv _ ?o |- _ => pose proof (proj1 (proj2 Ho) N_compute_surfs) as Hj; cbn in Hj; destruct Hj as (Hj1 & Hj2) end.
    eapply go_minus2; [exact Hj1|exact Hj2]. }
  intros cs Hcs. cbn beta in Hcs |- *. eapply fin_bind; [apply go_setn with (P := fun b => b = cs); reflexivity|]. intros ? ?. cbn beta.
  repeat f1.
  eapply fin_bind; [eapply go_setarr with (P := fun b => shaped b _ _ /\ exists l, numbers f "pmns_b" l /\ begins (map (option_map (fneg S)) l) b); eassumption|]. intros ? ?. cbn beta.
  repeat f1.
  match goal with |- context [if ?b then _ else _] => destruct b end.
  - eapply fin_bind.
    { repeat r1. eapply go_bind; [eapply go_setarr with (P := fun b => shaped b _ _ /\ exists l, numbers f "pmnc_b" l /\ begins (map (option_map (fneg S)) l) b); eassumption|]. intros ? ?. cbn beta. rule. }
    intros ? ?. cbn beta. repeat f1. apply fin_close. intros o (HA & HN & HI & HB). ends HI.
  - eapply fin_bind; [repeat r1; rule|]. intros ? ?. cbn beta. repeat f1. apply fin_close. intros o (HA & HN & HI & HB). ends HI.
Qed.
End Read.

Theorem read_case (S : Scalar) : exists w' mn ns nb, wf_obj (wO (bx S)) /\ read_boozmn S "b.nc" (bx S) = IOk tt w' /\
  oI (wO w') I_mnboz = Some mn /\ oI (wO w') I_ns_in = Some ns /\ oI (wO w') I_ns_b = Some nb.
Proof.
  assert (H : match read_boozmn S "b.nc" (bx S) with IOk _ w => exists mn ns nb, oI (wO w) I_mnboz = Some mn /\ oI (wO w) I_ns_in = Some ns /\ oI (wO w) I_ns_b = Some nb | _ => False end).
  { vm_compute. repeat eexists. }
  destruct (read_boozmn S "b.nc" (bx S)) as [[] w'| | |] eqn:E; try contradiction. destruct H as (mn & ns & nb & H1 & H2 & H3).
  exists w', mn, ns, nb. split; [|repeat split; auto]. exact (obj_new_wf (S := S)).
Qed.

(** init_trig fills the tables with [TC] and [TS]. *)
From Coq Require Import ZArith List String Bool Lia.
From Verif Require Import Scalar Prog Model Wp Func Step.
Import ListNotations.
Local Open Scope Z_scope.

Ltac splits := repeat match goal with |- _ /\ _ => split end.

(** Decide the integer comparisons in the goal, by arithmetic or by cases. *)
Ltac zb1 :=
  match goal with
  | |- context [?a =? ?b] =>
      first [ rewrite (proj2 (Z.eqb_eq a b)) by lia
            | rewrite (proj2 (Z.eqb_neq a b)) by lia
            | destruct (Z.eqb_spec a b); try (exfalso; lia) ]
  | |- context [?a <? ?b] =>
      first [ rewrite (proj2 (Z.ltb_lt a b)) by lia
            | rewrite (proj2 (Z.ltb_ge a b)) by lia
            | destruct (Z.ltb_spec a b); try (exfalso; lia) ]
  | |- context [?a <=? ?b] =>
      first [ rewrite (proj2 (Z.leb_le a b)) by lia
            | rewrite (proj2 (Z.leb_gt a b)) by lia
            | destruct (Z.leb_spec a b); try (exfalso; lia) ]
  end; cbn [andb orb negb].
Ltac zb := cbv beta; cbn [andb orb negb]; repeat zb1.

Section TrigProof.
Variable S : Scalar.
Notation obj := (obj S).
Notation F := (F S).
Variable P : fp.

Lemma TC_0 x : TC (S:=S) x 0 = f1 S. Proof. reflexivity. Qed.
Lemma TS_0 x : TS (S:=S) x 0 = f0 S. Proof. reflexivity. Qed.
Lemma TC_1 x : TC (S:=S) x 1 = fcos S x. Proof. reflexivity. Qed.
Lemma TS_1 x : TS (S:=S) x 1 = fsin S x. Proof. reflexivity. Qed.
Lemma tcs_rec x m : 2 <= m ->
  tcs (S:=S) x (Z.to_nat m) =
  (TC x (m-1) * fcos S x - TS x (m-1) * fsin S x, TS x (m-1) * fcos S x + TC x (m-1) * fsin S x)%sc.
Proof.
  intros H. unfold TC, TS.
  replace (Z.to_nat m) with (Datatypes.S (Datatypes.S (Z.to_nat (m - 2)))) by lia.
  replace (Z.to_nat (m - 1)) with (Datatypes.S (Z.to_nat (m - 2))) by lia.
  reflexivity.
Qed.
Lemma TC_rec x m : 2 <= m ->
  TC (S:=S) x m = (TC x (m-1) * TC x 1 - TS x (m-1) * TS x 1)%sc.
Proof. intros. unfold TC at 1. now rewrite tcs_rec. Qed.
Lemma TS_rec x m : 2 <= m ->
  TS (S:=S) x m = (TS x (m-1) * TC x 1 + TC x (m-1) * TS x 1)%sc.
Proof. intros. unfold TS at 1. now rewrite tcs_rec. Qed.

Lemma it_rec_spec R C N mmax c s gc gs (x : Z -> F) (o : obj) :
  0 <= N <= R -> mmax < C -> 0 <= mmax ->
  mat_is c R C gc -> mat_is s R C gs ->
  (forall i, 0 <= i < N -> 1 <= mmax -> gc i 1 = TC (x i) 1 /\ gs i 1 = TS (x i) 1) ->
  wp P (it_rec S N mmax (c, s)) o (fun cs o' ev => ev = [] /\ o' = o /\
    mat_is (fst cs) R C (fun i m => if (i <? N) && (1 <=? m) && (m <=? mmax) then TC (x i) m else gc i m) /\
    mat_is (snd cs) R C (fun i m => if (i <? N) && (1 <=? m) && (m <=? mmax) then TS (x i) m else gs i m)).
Proof.
  intros HN HC Hm Mc Ms H0.
  destruct (Z.lt_ge_cases mmax 2) as [L|L].
  { unfold it_rec. apply wp_for_empty; [lia|]. splits; auto.
    - eapply mat_ext; [|exact Mc]. intros i m Hi Hm'. zb; auto.
      replace m with 1 by lia. apply H0; lia.
    - eapply mat_ext; [|exact Ms]. intros i m Hi Hm'. zb; auto.
      replace m with 1 by lia. apply H0; lia. }
  unfold it_rec.
  eapply wp_mono; [|eapply wp_for_pure with (Inv := fun m cs =>
    mat_is (fst cs) R C (fun i l => if (i <? N) && (1 <=? l) && (l <? m) then TC (x i) l else gc i l) /\
    mat_is (snd cs) R C (fun i l => if (i <? N) && (1 <=? l) && (l <? m) then TS (x i) l else gs i l))].
  - cbn. intros cs o' ev (-> & -> & M1 & M2). splits; auto.
    + eapply mat_ext; [|exact M1]. intros; zb; auto.
    + eapply mat_ext; [|exact M2]. intros; zb; auto.
  - lia.
  - split; [eapply mat_ext; [|exact Mc]|eapply mat_ext; [|exact Ms]];
      intros i m Hi Hm'; zb; auto; replace m with 1 by lia; apply H0; lia.
  - intros m cs Hm' (M1 & M2).
    eapply wp_mono; [|eapply wp_for_pure with (Inv := fun j cs =>
      mat_is (fst cs) R C (fun i l => if (i <? N) && (1 <=? l) && ((l <? m) || ((l =? m) && (i <? j))) then TC (x i) l else gc i l) /\
      mat_is (snd cs) R C (fun i l => if (i <? N) && (1 <=? l) && ((l <? m) || ((l =? m) && (i <? j))) then TS (x i) l else gs i l))].
    + cbn. intros cs' o' ev (-> & -> & M1' & M2'). splits; auto.
      * eapply mat_ext; [|exact M1']. intros; zb; auto.
      * eapply mat_ext; [|exact M2']. intros; zb; auto.
    + lia.
    + split; [eapply mat_ext; [|exact M1]|eapply mat_ext; [|exact M2]];
        intros i l Hi Hl; zb; auto.
    + clear M1 M2. intros j [c' s'] Hj (M1 & M2). cbn [fst snd] in *.
      eapply wp_mget; [exact M1|lia|lia|].
      eapply wp_mget; [exact M1|lia|lia|].
      eapply wp_mget; [exact M2|lia|lia|].
      eapply wp_mget; [exact M2|lia|lia|].
      eapply wp_mset; [exact M1|lia|lia|]. intros c'' M1'.
      eapply wp_mget; [exact M2|lia|lia|].
      eapply wp_mget; [exact M1'|lia|lia|].
      eapply wp_mget; [exact M1'|lia|lia|].
      eapply wp_mget; [exact M2|lia|lia|].
      eapply wp_mset; [exact M2|lia|lia|]. intros s'' M2'.
      cbn [wp fst snd]. splits; auto.
      * eapply mat_ext; [|exact M1']. intros i l Hi Hl; zb; auto.
        replace i with j by lia. replace l with m by lia. symmetry. apply TC_rec; lia.
      * eapply mat_ext; [|exact M2']. intros i l Hi Hl; zb; auto.
        replace i with j by lia. replace l with m by lia. symmetry. apply TS_rec; lia.
Qed.

(** What the tables hold after init_trig: the entries for grid points and for mode numbers
    up to mmax (nmax) are filled in, all the others are as before.  Column 0 of the sine
    tables is never written: it keeps what the caller put there. *)
Record trig_is (t : trig4 S) (R Cm Cn N mmax nmax : Z) (th ze : Z -> F)
  (gcm gsm gcn gsn : Z -> Z -> F) : Prop := {
  ti_cm : mat_is (tcosm S t) R Cm (fun i m => if (i <? N) && (m <=? mmax) then TC (th i) m else gcm i m);
  ti_sm : mat_is (tsinm S t) R Cm (fun i m => if (i <? N) && (1 <=? m) && (m <=? mmax) then TS (th i) m else gsm i m);
  ti_cn : mat_is (tcosn S t) R Cn (fun i m => if (i <? N) && (m <=? nmax) then TC (ze i) m else gcn i m);
  ti_sn : mat_is (tsinn S t) R Cn (fun i m => if (i <? N) && (1 <=? m) && (m <=? nmax) then TS (ze i) m else gsn i m)
}.

Lemma init_trig_spec R Cm Cn N mmax nmax nf t vth vze th ze gcm gsm gcn gsn (o : obj) :
  0 <= N <= R -> 1 <= mmax < Cm -> 0 <= nmax < Cn ->
  vec_is vth N th -> vec_is vze N ze ->
  mat_is (tcosm S t) R Cm gcm -> mat_is (tsinm S t) R Cm gsm ->
  mat_is (tcosn S t) R Cn gcn -> mat_is (tsinn S t) R Cn gsn ->
  wp P (init_trig S vth vze t mmax nmax nf) o (fun t' o' ev => ev = [] /\ o' = o /\
    trig_is t' R Cm Cn N mmax nmax th (fun j => fmul S (fofZ S nf) (ze j)) gcm gsm gcn gsn).
Proof.
  intros HN Hm Hn Vth Vze M1 M2 M3 M4.
  unfold init_trig. rewrite (vec_is_asize _ _ _ Vth).
  (* first loop *)
  eapply wp_sub with (R := fun t' =>
    mat_is (tcosm S t') R Cm (fun i m => if (i <? N) && (m <=? 1) then TC (th i) m else gcm i m) /\
    mat_is (tsinm S t') R Cm (fun i m => if (i <? N) && (m =? 1) then TS (th i) m else gsm i m) /\
    mat_is (tcosn S t') R Cn (fun i m => if (i <? N) && (m <=? 0) then f1 S else gcn i m) /\
    tsinn S t' = tsinn S t).
  { unfold it_first. rewrite (vec_is_asize _ _ _ Vth).
    eapply wp_mono; [|eapply wp_for_pure with (Inv := fun j t' =>
      mat_is (tcosm S t') R Cm (fun i m => if (i <? j) && (m <=? 1) then TC (th i) m else gcm i m) /\
      mat_is (tsinm S t') R Cm (fun i m => if (i <? j) && (m =? 1) then TS (th i) m else gsm i m) /\
      mat_is (tcosn S t') R Cn (fun i m => if (i <? j) && (m <=? 0) then f1 S else gcn i m) /\
      tsinn S t' = tsinn S t)].
    - cbn. intros t' o' ev (-> & -> & H1 & H2 & H3 & H4). auto 10.
    - lia.
    - splits; auto; (eapply mat_ext; [|eassumption]); intros; zb; auto.
    - intros j t' Hj (H1 & H2 & H3 & H4).
      eapply wp_mset; [exact H1|lia|lia|]. intros a Ha.
      eapply wp_mset; [exact H3|lia|lia|]. intros c Hc.
      eapply wp_vget; [exact Vth|lia|].
      eapply wp_mset; [exact Ha|lia|lia|]. intros a' Ha'.
      eapply wp_mset; [exact H2|lia|lia|]. intros b Hb.
      cbn [wp tcosm tsinm tcosn tsinn]. splits; auto.
      + eapply mat_ext; [|exact Ha']. intros i m Hi Hm'.
        destruct (Z.eq_dec i j) as [->|]; destruct (Z.eq_dec m 0) as [->|];
          try destruct (Z.eq_dec m 1) as [->|]; zb; reflexivity.
      + eapply mat_ext; [|exact Hb]. intros i m Hi Hm'.
        destruct (Z.eq_dec i j) as [->|]; destruct (Z.eq_dec m 0) as [->|];
          try destruct (Z.eq_dec m 1) as [->|]; zb; try reflexivity.
      + eapply mat_ext; [|exact Hc]. intros i m Hi Hm'.
        destruct (Z.eq_dec i j) as [->|]; destruct (Z.eq_dec m 0) as [->|]; zb; reflexivity. }
  intros t1 (H1 & H2 & H3 & H4).
  (* second loop *)
  eapply wp_sub with (R := fun t' => tcosm S t' = tcosm S t1 /\ tsinm S t' = tsinm S t1 /\
    mat_is (tcosn S t') R Cn (fun i m => if (i <? N) && (m <=? Z.min 1 nmax) then TC (fmul S (fofZ S nf) (ze i)) m else gcn i m) /\
    mat_is (tsinn S t') R Cn (fun i m => if (i <? N) && (m =? 1) && (m <=? nmax) then TS (fmul S (fofZ S nf) (ze i)) m else gsn i m)).
  { unfold it_second. destruct (Z.leb_spec 1 nmax) as [L|L].
    - rewrite (vec_is_asize _ _ _ Vth). rewrite Z.min_l by lia.
      eapply wp_mono; [|eapply wp_for_pure with (Inv := fun j t' => tcosm S t' = tcosm S t1 /\ tsinm S t' = tsinm S t1 /\
        mat_is (tcosn S t') R Cn (fun i m => if (i <? N) && (m <=? (if i <? j then 1 else 0)) then TC (fmul S (fofZ S nf) (ze i)) m else gcn i m) /\
        mat_is (tsinn S t') R Cn (fun i m => if (i <? N) && (i <? j) && (m =? 1) then TS (fmul S (fofZ S nf) (ze i)) m else gsn i m))].
      + cbn. intros t' o' ev (-> & -> & E1 & E2 & E3 & E4). splits; auto.
        * eapply mat_ext; [|exact E3]. intros; zb; auto.
        * eapply mat_ext; [|exact E4]. intros; zb; auto.
      + lia.
      + splits; auto.
        * eapply mat_ext; [|exact H3]. intros i m Hi Hm'; zb; auto; now replace m with 0 by lia.
        * rewrite H4. eapply mat_ext; [|exact M4]. intros i m Hi Hm'; zb; auto.
      + intros j t' Hj (E1 & E2 & E3 & E4).
        eapply wp_vget; [exact Vze|lia|].
        eapply wp_mset; [exact E3|lia|lia|]. intros c Hc.
        eapply wp_mset; [exact E4|lia|lia|]. intros d Hd.
        cbn [wp tcosm tsinm tcosn tsinn]. splits; auto.
        * eapply mat_ext; [|exact Hc]. intros i m Hi Hm'.
          destruct (Z.eq_dec i j) as [->|]; destruct (Z.eq_dec m 1) as [->|]; zb; reflexivity.
        * eapply mat_ext; [|exact Hd]. intros i m Hi Hm'.
          destruct (Z.eq_dec i j) as [->|]; destruct (Z.eq_dec m 1) as [->|]; zb; reflexivity.
    - rewrite Z.min_r by lia. cbn [wp]. splits; auto.
      + eapply mat_ext; [|exact H3]. intros i m Hi Hm'; zb; auto; now replace m with 0 by lia.
      + rewrite H4. eapply mat_ext; [|exact M4]. intros i m Hi Hm'; zb; auto. }
  intros t2 (E1 & E2 & E3 & E4). rewrite E1, E2.
  eapply wp_sub; [eapply it_rec_spec with (x := th); [| | |exact H1|exact H2|]; try lia|].
  { intros i Hi Hm2. zb; auto. }
  intros cs (K1 & K2).
  eapply wp_sub; [eapply it_rec_spec with (x := fun j => fmul S (fofZ S nf) (ze j)); [| | |exact E3|exact E4|]; try lia|].
  { intros i Hi Hm2. zb; auto. }
  intros cn (K3 & K4).
  cbn [wp]. split; [reflexivity|split; [reflexivity|]]. constructor; cbn [tcosm tsinm tcosn tsinn fst snd].
  - eapply mat_ext; [|exact K1]. intros; zb; auto.
  - eapply mat_ext; [|exact K2]. intros; zb; auto.
  - eapply mat_ext; [|exact K3]. intros; zb; auto.
  - eapply mat_ext; [|exact K4]. intros; zb; auto.
Qed.
End TrigProof.

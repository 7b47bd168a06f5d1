(** Every result of a loose arithmetic is within a constant times e of the exact one. *)
From Coq Require Import ZArith QArith List Bool Lia Reals Lra Psatz Qreals Floats.SpecFloat.
From Verif Require Import Scalar Prog Model Wp Func Step TrigProof InitProof SurfProof RunProof Par FuncExt Spec RunThms
  RSum RSpec RPoint RQuad RThms RThms2 RThms3 RExamples RoundSpec Round RoundThm Sim Ieee Fma.
Import ListNotations.
Local Open Scope Z_scope.
Local Open Scope R_scope.

(** The loosest arithmetic, for all e and M at once *)
Definition FAM : Scalar :=
  let two (g : R -> R -> option R) (X Y : R -> R -> option R -> Prop) : R -> R -> option R -> Prop :=
    fun e M w => exists u u', X e M u /\ Y e M u' /\ delivers e M (on2 g u u') w in
  let one (g : R -> option R) (X : R -> R -> option R -> Prop) : R -> R -> option R -> Prop :=
    fun e M w => exists u, X e M u /\ delivers e M (on1 g u) w in
  let const (t : R) : R -> R -> option R -> Prop := fun e M w => delivers e M (Some t) w in
  {| F := R -> R -> option R -> Prop;
     fadd := two (fun a b => Some (a + b)); fsub := two (fun a b => Some (a - b)); fmul := two (fun a b => Some (a * b));
     fdiv := two quo;
     fneg := fun X e M w => exists u, X e M u /\ w = option_map Ropp u;
     fofZ := fun z => const (IZR z); flit := fun q => const (Q2R q); fpi := const PI;
     fsqrt := fun X => X; fcos := one (fun a => Some (cos a)); fsin := one (fun a => Some (sin a)); fabs := fun X => X;
     flt := fun _ _ => false; ftoZ := fun _ => None |}.

Definition tight (X : R -> R -> option R -> Prop) (a : R) : Prop :=
  exists C e0 M0, 0 <= C /\ 0 < e0 /\ forall e M, 0 <= e -> e <= e0 -> M0 <= M ->
    forall w, X e M w -> exists c, w = Some c /\ Rabs (c - a) <= C * e.

(** ** From the loosest arithmetic to the exact one *)
Lemma tight_const t : tight (fun e M w => delivers e M (Some t) w) t.
Proof.
  exists (1 + Rabs t), 1, (Rabs t). pose proof (Rabs_pos t). repeat split; try lra.
  intros e M _ _ HM w H1. destruct (H1 HM) as (c & Ec & Bc). exists c. split; [exact Ec|]. lra.
Qed.
Lemma tight_two (g : R -> R -> option R) (h : R -> R -> R) X Y a b L d : 0 <= L -> 0 < d ->
  (forall p q, Rabs (p - a) <= d -> Rabs (q - b) <= d -> g p q = Some (h p q) /\ Rabs (h p q - h a b) <= L * (Rabs (p - a) + Rabs (q - b))) ->
  tight X a -> tight Y b -> tight (fun e M w => exists u u', X e M u /\ Y e M u' /\ delivers e M (on2 g u u') w) (h a b).
Proof.
  intros HL Hd Lip (C & e0 & M0 & HC & He & N) (C' & e0' & M0' & HC' & He' & N').
  set (K := L * (C + C')). assert (HK : 0 <= K) by (apply Rmult_le_pos; lra).
  pose proof (Rabs_pos (h a b)) as Hg.
  exists (1 + Rabs (h a b) + K + K), (Rmin (Rmin e0 e0') (Rmin 1 (d / (1 + C + C')))), (Rmax (Rmax M0 M0') (Rabs (h a b) + K)).
  split; [lra|]. split.
  { repeat apply Rmin_glb_lt; auto; [lra|]. apply Rdiv_lt_0_compat; lra. }
  intros e M Pe H1 H2 w (u & u' & Xu & Yu & Dw).
  assert (L1 : e <= e0 /\ e <= e0' /\ e <= 1 /\ e <= d / (1 + C + C')).
  { pose proof (Rmin_l (Rmin e0 e0') (Rmin 1 (d / (1 + C + C')))). pose proof (Rmin_r (Rmin e0 e0') (Rmin 1 (d / (1 + C + C')))).
    pose proof (Rmin_l e0 e0'). pose proof (Rmin_r e0 e0').
    pose proof (Rmin_l 1 (d / (1 + C + C'))). pose proof (Rmin_r 1 (d / (1 + C + C'))). lra. }
  assert (L2 : M0 <= M /\ M0' <= M /\ Rabs (h a b) + K <= M).
  { pose proof (Rmax_l (Rmax M0 M0') (Rabs (h a b) + K)). pose proof (Rmax_r (Rmax M0 M0') (Rabs (h a b) + K)).
    pose proof (Rmax_l M0 M0'). pose proof (Rmax_r M0 M0'). lra. }
  destruct L1 as (A1 & A2 & A3 & A4), L2 as (B1 & B2 & B3).
  destruct (N e M Pe A1 B1 u Xu) as (p & -> & Bp). destruct (N' e M Pe A2 B2 u' Yu) as (q & -> & Bq).
  assert (D : (1 + C + C') * e <= d).
  { apply (Rmult_le_compat_l (1 + C + C')) in A4; [|lra]. replace ((1 + C + C') * (d / (1 + C + C'))) with d in A4; [exact A4|]. field. lra. }
  assert (C * e <= d /\ C' * e <= d) as (D1 & D2) by nra.
  destruct (Lip p q) as (Dm & Li); [lra|lra|].
  assert (T : Rabs (h p q - h a b) <= K * e).
  { eapply Rle_trans; [exact Li|]. unfold K. rewrite Rmult_assoc. apply Rmult_le_compat_l; auto. lra. }
  assert (T2 : Rabs (h p q) <= Rabs (h a b) + K * e).
  { replace (h p q) with (h a b + (h p q - h a b)) by ring. eapply Rle_trans; [apply Rabs_triang|]. lra. }
  assert (K * e <= K) by nra.
  cbn [on2] in Dw. rewrite Dm in Dw. cbn [delivers] in Dw.
  destruct Dw as (c & Ec & Bc); [lra|]. exists c. split; auto.
  replace (c - h a b) with ((c - h p q) + (h p q - h a b)) by ring.
  eapply Rle_trans; [apply Rabs_triang|]. nra.
Qed.
Lemma tight_one (h : R -> R) X a : (forall p q, Rabs (h p - h q) <= Rabs (p - q)) ->
  tight X a -> tight (fun e M w => exists u, X e M u /\ delivers e M (on1 (fun t => Some (h t)) u) w) (h a).
Proof.
  intros Lip (C & e0 & M0 & HC & He & N). pose proof (Rabs_pos (h a)).
  exists (1 + Rabs (h a) + C + C), (Rmin e0 1), (Rmax M0 (Rabs (h a) + C)). split; [lra|]. split; [apply Rmin_glb_lt; lra|].
  intros e M Pe H1 H2 w (u & Xu & Dw). pose proof (Rmin_l e0 1). pose proof (Rmin_r e0 1).
  pose proof (Rmax_l M0 (Rabs (h a) + C)). pose proof (Rmax_r M0 (Rabs (h a) + C)).
  destruct (N e M Pe ltac:(lra) ltac:(lra) u Xu) as (p & -> & Bp). cbn [on1 delivers] in Dw.
  pose proof (Lip p a) as Li.
  assert (T2 : Rabs (h p) <= Rabs (h a) + C * e).
  { replace (h p) with (h a + (h p - h a)) by ring. eapply Rle_trans; [apply Rabs_triang|]. lra. }
  assert (C * e <= C) by nra. destruct Dw as (c & Ec & Bc); [lra|]. exists c. split; auto.
  replace (c - h a) with ((c - h p) + (h p - h a)) by ring.
  eapply Rle_trans; [apply Rabs_triang|]. nra.
Qed.

Lemma sim_tight : simul FAM RS tight (fun b => b <> 0).
Proof.
  constructor.
  - intros x y a b. apply (tight_two (fun a b => Some (a + b)) Rplus x y a b 1 1); try lra.
    intros p q _ _. split; auto. replace (p + q - (a + b)) with ((p - a) + (q - b)) by ring.
    eapply Rle_trans; [apply Rabs_triang|]. lra.
  - intros x y a b. apply (tight_two (fun a b => Some (a - b)) Rminus x y a b 1 1); try lra.
    intros p q _ _. split; auto. replace (p - q - (a - b)) with ((p - a) + - (q - b)) by ring.
    eapply Rle_trans; [apply Rabs_triang|]. rewrite Rabs_Ropp. lra.
  - intros x y a b. pose proof (Rabs_pos a). pose proof (Rabs_pos b).
    apply (tight_two (fun a b => Some (a * b)) Rmult x y a b (1 + Rabs a + Rabs b) 1); try lra.
    intros p q Hp Hq. split; auto. replace (p * q - a * b) with (p * (q - b) + b * (p - a)) by ring.
    eapply Rle_trans; [apply Rabs_triang|]. rewrite !Rabs_mult.
    assert (Rabs p <= Rabs a + 1).
    { replace p with (a + (p - a)) by ring. eapply Rle_trans; [apply Rabs_triang|]. lra. }
    pose proof (Rabs_pos (p - a)). pose proof (Rabs_pos (q - b)). pose proof (Rabs_pos p). nra.
  - intros x y a b Hx Hy Hb. pose proof (Rabs_pos a) as Pa. pose proof (Rabs_pos_lt b Hb) as Pb. revert Hx Hy.
    apply (tight_two quo Rdiv x y a b (2 * (Rabs a + Rabs b) / (Rabs b * Rabs b)) (Rabs b / 2)); try lra.
    { apply Rmult_le_pos; [lra|]. apply Rlt_le, Rinv_0_lt_compat. nra. }
    intros p q Hp Hq.
    assert (Pq : Rabs b / 2 <= Rabs q).
    { assert (Rabs b <= Rabs q + Rabs (q - b)).
      { replace b with (q + - (q - b)) at 1 by ring. eapply Rle_trans; [apply Rabs_triang|]. rewrite Rabs_Ropp. lra. }
      lra. }
    assert (Nq : q <> 0) by (intros ->; rewrite Rabs_R0 in Pq; lra).
    split; [unfold quo; destruct (Req_EM_T q 0); [contradiction|reflexivity]|].
    replace (p / q - a / b) with ((b * (p - a) - a * (q - b)) / (q * b)) by (field; auto).
    unfold Rdiv at 1. rewrite Rabs_mult.
    assert (X : Rabs (/ (q * b)) <= 2 / (Rabs b * Rabs b)).
    { rewrite Rabs_inv, Rabs_mult. replace (2 / (Rabs b * Rabs b)) with (/ (Rabs b / 2 * Rabs b)) by (field; lra).
      apply Rinv_le_contravar; nra. }
    assert (Y : Rabs (b * (p - a) - a * (q - b)) <= (Rabs a + Rabs b) * (Rabs (p - a) + Rabs (q - b))).
    { replace (b * (p - a) - a * (q - b)) with (b * (p - a) + - (a * (q - b))) by ring.
      eapply Rle_trans; [apply Rabs_triang|]. rewrite Rabs_Ropp, !Rabs_mult.
      pose proof (Rabs_pos (p - a)). pose proof (Rabs_pos (q - b)). nra. }
    eapply Rle_trans; [apply Rmult_le_compat; [apply Rabs_pos|apply Rabs_pos|exact Y|exact X]|].
    right. field. lra.
  - intros x a (C & e0 & M0 & HC & He & N). exists C, e0, M0. repeat split; auto. intros e M Pe H1 H2 w (u & Xu & ->).
    destruct (N e M Pe H1 H2 u Xu) as (c & -> & B). exists (- c). split; [reflexivity|].
    change (fneg RS a) with (- a). replace (- c - - a) with (- (c - a)) by ring. now rewrite Rabs_Ropp.
  - intros x a. apply (tight_one cos), cos_lip.
  - intros x a. apply (tight_one sin), sin_lip.
  - intros z. exact (tight_const (IZR z)).
  - intros q. exact (tight_const (Q2R q)).
  - exact (tight_const PI).
  - intros z Hz. now apply not_0_IZR.
Qed.

(** ** From any loose arithmetic to the loosest *)
Section Incl.
Variables (S : Scalar) (v : F S -> option R -> Prop) (e M : R).
Hypothesis HL : loose S v e M.
Definition within (x : F S) (X : R -> R -> option R -> Prop) : Prop := some S v x /\ forall w, v x w -> X e M w.
Lemma sim_within : simul S FAM within (fun _ => True).
Proof.
  destruct HL as [L1 L2 L3 L4 L5 L6 L7 L8 L9 L10 L11].
  assert (Two : forall f g, loose2 S v e M f g -> forall x y X Y, within x X -> within y Y ->
    within (f x y) (fun e M w => exists u u', X e M u /\ Y e M u' /\ delivers e M (on2 g u u') w)).
  { intros f g H x y X Y (Sx & Ix) (Sy & Iy). destruct (H x y Sx Sy) as (Sf & If). split; [exact Sf|].
    intros w Hw. destruct (If w Hw) as (u & u' & Vu & Vu' & D). exists u, u'. auto. }
  assert (One : forall f g, loose1 S v e M f g -> forall x X, within x X ->
    within (f x) (fun e M w => exists u, X e M u /\ delivers e M (on1 g u) w)).
  { intros f g H x X (Sx & Ix). destruct (H x Sx) as (Sf & If). split; [exact Sf|].
    intros w Hw. destruct (If w Hw) as (u & Vu & D). exists u. auto. }
  constructor; auto.
  - intros x y X Y Hx Hy. exact (Two _ _ L2 x y X Y Hx Hy).
  - intros x y X Y Hx Hy. exact (Two _ _ L3 x y X Y Hx Hy).
  - intros x y X Y Hx Hy. exact (Two _ _ L4 x y X Y Hx Hy).
  - intros x y X Y Hx Hy _. exact (Two _ _ L5 x y X Y Hx Hy).
  - intros x X (Sx & Ix). destruct (L6 x Sx) as (Sf & If). split; [exact Sf|].
    intros w Hw. destruct (If w Hw) as (u & Vu & D). exists u. auto.
  - intros x X Hx. exact (One _ _ L7 x X Hx).
  - intros x X Hx. exact (One _ _ L8 x X Hx).
Qed.
End Incl.

(** ** The inputs *)
Definition ball (a : R) : R -> R -> option R -> Prop := fun e M w => exists c, w = Some c /\ Rabs (c - a) <= e * (1 + Rabs a).
Definition ball1 (f : Z -> R) : Z -> F FAM := fun j => ball (f j).
Definition ball2 (f : Z -> Z -> R) : Z -> Z -> F FAM := fun k j => ball (f k j).
Definition ball_inp (i : Inp RS) : Inp FAM :=
  mkInp FAM (asym i) (nfp i) (mpol i) (ntor i) (mnmax i) (mpolq i) (ntorq i) (mnmaxq i) (nsin i) (mboz i) (nboz i) (verb i)
    (xm i) (xn i) (xmq i) (xnq i) (nsurf i) (surf i) (ball1 (sin_ i)) (ball1 (iota i))
    (ball2 (rmnc i)) (ball2 (zmns i)) (ball2 (lmns i)) (ball2 (bmnc i)) (ball2 (bsubumnc i)) (ball2 (bsubvmnc i))
    (ball2 (rmns i)) (ball2 (zmnc i)) (ball2 (lmnc i)) (ball2 (bmns i)) (ball2 (bsubumns i)) (ball2 (bsubvmns i)).
Lemma ball_ok i : ok_inp i -> ok_inp (ball_inp i). Proof. intros []. constructor; assumption. Qed.
Lemma tight_ball a : tight (ball a) a.
Proof.
  exists (1 + Rabs a), 1, 0. pose proof (Rabs_pos a). repeat split; try lra. intros e M _ _ _ w (c & E & B).
  exists c. split; [exact E|]. lra.
Qed.
Lemma alike_tight i : alike FAM RS tight (ball_inp i) i.
Proof. constructor; try reflexivity; try (intros; reflexivity); try (intros _); intros; try intros k j' Hk Hj; apply tight_ball. Qed.
Lemma alike_trans (S T U : Scalar) (r : F S -> F T -> Prop) (r1 : F T -> F U -> Prop) (r' : F S -> F U -> Prop) (i' : Inp S) (i : Inp T) (q : Inp U) :
  (forall x a z, r x a -> r1 a z -> r' x z) -> alike T U r1 i q -> alike S T r i' i -> alike S U r' i' q.
Proof.
  intros H [C1 C2 C3 C4 C5 C6 C7 C8 C9 C10 C11 C12 C13 C14 C15 C16 C17 C18 C19 C20 C21 C22 C23 C24 C25 C26]
    [D1 D2 D3 D4 D5 D6 D7 D8 D9 D10 D11 D12 D13 D14 D15 D16 D17 D18 D19 D20 D21 D22 D23 D24 D25 D26].
  assert (Two : forall n1 m1 n2 m2 x a y, rel2 S T r n1 m1 x a -> rel2 T U r1 n2 m2 a y -> n2 = n1 -> m2 = m1 -> rel2 S U r' n2 m2 x y).
  { intros n1 m1 n2 m2 x a y H1 H2 -> -> k j Hk Hj. apply H with (a k j); [now apply H1|now apply H2]. }
  constructor; try congruence.
  - intros k Hk. rewrite D9, C9 by lia. reflexivity.
  - intros k Hk. rewrite D10, C10 by lia. reflexivity.
  - intros k Hk. rewrite D11, C11 by lia. reflexivity.
  - intros k Hk. rewrite D12, C12 by lia. reflexivity.
  - intros k Hk. rewrite D13, C13 by lia. reflexivity.
  - intros k Hk. apply H with (iota i k); [apply D14; lia|now apply C14].
  - exact (Two _ _ _ _ _ _ _ D15 C15 (eq_sym C3) (eq_sym C5)).
  - exact (Two _ _ _ _ _ _ _ D16 C16 (eq_sym C3) (eq_sym C5)).
  - exact (Two _ _ _ _ _ _ _ D17 C17 (eq_sym C3) (eq_sym C5)).
  - exact (Two _ _ _ _ _ _ _ D18 C18 (eq_sym C4) (eq_sym C5)).
  - exact (Two _ _ _ _ _ _ _ D19 C19 (eq_sym C4) (eq_sym C5)).
  - exact (Two _ _ _ _ _ _ _ D20 C20 (eq_sym C4) (eq_sym C5)).
  - intros As. assert (As' : asym i = true) by congruence. exact (Two _ _ _ _ _ _ _ (D21 As') (C21 As) (eq_sym C3) (eq_sym C5)).
  - intros As. assert (As' : asym i = true) by congruence. exact (Two _ _ _ _ _ _ _ (D22 As') (C22 As) (eq_sym C3) (eq_sym C5)).
  - intros As. assert (As' : asym i = true) by congruence. exact (Two _ _ _ _ _ _ _ (D23 As') (C23 As) (eq_sym C3) (eq_sym C5)).
  - intros As. assert (As' : asym i = true) by congruence. exact (Two _ _ _ _ _ _ _ (D24 As') (C24 As) (eq_sym C4) (eq_sym C5)).
  - intros As. assert (As' : asym i = true) by congruence. exact (Two _ _ _ _ _ _ _ (D25 As') (C25 As) (eq_sym C4) (eq_sym C5)).
  - intros As. assert (As' : asym i = true) by congruence. exact (Two _ _ _ _ _ _ _ (D26 As') (C26 As) (eq_sym C4) (eq_sym C5)).
Qed.
Lemma alike_ball i : alike RS FAM (fun a b => b = ball a) i (ball_inp i).
Proof. constructor; try reflexivity; try (intros; reflexivity); try (intros _); intros; try intros k j' Hk Hj; reflexivity. Qed.
Lemma alike_within S v e M i' i : alike S RS (input S v e) i' i -> alike S FAM (within S v e M) i' (ball_inp i).
Proof.
  intros H. apply (alike_trans S RS FAM (input S v e) (fun a b => b = ball a) (within S v e M) i' i (ball_inp i)); auto using alike_ball.
  intros x a z H1 ->. exact H1.
Qed.

(** ** One constant for all results *)
Lemma tight_uniform (n m : Z) (l : list afield) (x : afield -> Z -> Z -> F FAM) (a : afield -> Z -> Z -> R) :
  (forall f k b, In f l -> (0 <= k < n)%Z -> (0 <= b < m)%Z -> tight (x f k b) (a f k b)) ->
  exists C e0 M0, 0 <= C /\ 0 < e0 /\ forall e M, 0 <= e -> e <= e0 -> M0 <= M ->
    forall f k b, In f l -> (0 <= k < n)%Z -> (0 <= b < m)%Z ->
      forall w, x f k b e M w -> exists c, w = Some c /\ Rabs (c - a f k b) <= C * e.
Proof.
  intros H.
  assert (G : forall T (l : list T) (P : T -> R -> R -> R -> Prop),
    (forall t C e M C' e' M', C <= C' -> e' <= e -> M <= M' -> P t C e M -> P t C' e' M') ->
    (forall t, In t l -> exists C e M, 0 <= C /\ 0 < e /\ P t C e M) ->
    exists C e M, 0 <= C /\ 0 < e /\ forall t, In t l -> P t C e M).
  { intros T l0 P Mo. induction l0 as [|t l0 IH]; intros Hl.
    - exists 0, 1, 0. repeat split; try lra. intros t [].
    - destruct IH as (C & e & M & HC & He & HP); [intros; apply Hl; now right|].
      destruct (Hl t) as (C' & e' & M' & HC' & He' & HP'); [now left|].
      exists (Rmax C C'), (Rmin e e'), (Rmax M M').
      split; [eapply Rle_trans; [exact HC|apply Rmax_l]|]. split; [now apply Rmin_glb_lt|].
      intros t' [<-|Ht].
      + eapply Mo; [apply Rmax_r|apply Rmin_r|apply Rmax_r|exact HP'].
      + eapply Mo; [apply Rmax_l|apply Rmin_l|apply Rmax_l|auto]. }
  set (P := fun (t : afield * (nat * nat)) C e0 M0 => forall e M, 0 <= e -> e <= e0 -> M0 <= M ->
     forall w, x (fst t) (Z.of_nat (fst (snd t))) (Z.of_nat (snd (snd t))) e M w ->
       exists c, w = Some c /\ Rabs (c - a (fst t) (Z.of_nat (fst (snd t))) (Z.of_nat (snd (snd t)))) <= C * e).
  destruct (G _ (list_prod l (list_prod (seq 0 (Z.to_nat n)) (seq 0 (Z.to_nat m)))) P) as (C & e & M & HC & He & HP).
  - intros t C e M C' e' M' L1 L2 L3 HP e1 M1 Pe H1 H2 w Hw. destruct (HP e1 M1 Pe ltac:(lra) ltac:(lra) w Hw) as (c & V & B).
    exists c. split; auto. nra.
  - intros (f & k & b) Ht. apply in_prod_iff in Ht. destruct Ht as (Hf & Ht). apply in_prod_iff in Ht. destruct Ht as (Hk & Hb).
    apply in_seq in Hk. apply in_seq in Hb.
    destruct (H f (Z.of_nat k) (Z.of_nat b) Hf) as (C & e & M & HC & He & HP); [lia|lia|].
    exists C, e, M. split; auto.
  - exists C, e, M. split; [auto|]. split; [auto|]. intros e1 M1 Pe H1 H2 f k b Hf Hk Hb.
    assert (I : In (f, (Z.to_nat k, Z.to_nat b)) (list_prod l (list_prod (seq 0 (Z.to_nat n)) (seq 0 (Z.to_nat m))))).
    { apply in_prod; [auto|]. apply in_prod; apply in_seq; lia. }
    pose proof (HP _ I e1 M1 Pe H1 H2) as X. cbn [fst snd] in X. rewrite !Z2Nat.id in X by lia. exact X.
Qed.

Theorem loose_errors : forall (o : obj RS) i l, valid o i -> nfp_divides i -> incl l (outs (asym i)) ->
  exists r ev, run_ok o r ev /\
  ((forall j I G, (0 <= j < nsurf i)%Z -> elem r A_Boozer_I j = Some (Some I) -> elem r A_Boozer_G j = Some (Some G) ->
      G + iota i (surf i j) * I <> 0) ->
   (In A_gmnc_b l \/ In A_gmns_b l -> forall j a b, (0 <= j < nsurf i)%Z -> (0 <= a < nt i)%Z -> (0 <= b < nz i)%Z ->
      mB i (surf i j) (gth i a) (gze i b) <> 0) ->
   exists C e0 M0, 0 < e0 /\
   forall S v e M (i' : Inp S) (o' : obj S), loose S v e M -> e <= e0 -> M0 <= M -> alike S RS (input S v e) i' i -> valid o' i' ->
   exists r' ev', run_ok o' r' ev' /\
     (forall f j, In f [A_Boozer_I; A_Boozer_G] -> (0 <= j < nsurf i)%Z -> exists x y,
        elem r f j = Some (Some y) /\ elem r' f j = Some (Some x) /\ some S v x /\ forall w, v x w -> exists c, w = Some c /\ Rabs (c - y) <= C * e) /\
     (forall f k j, In f l -> (0 <= k < mnboz i)%Z -> (0 <= j < nsurf i)%Z -> exists x y,
        elem2 r f k j = Some (Some y) /\ elem2 r' f k j = Some (Some x) /\ some S v x /\ forall w, v x w -> exists c, w = Some c /\ Rabs (c - y) <= C * e)).
Proof.
  intros o i l V Hd Hl. destruct (run_total o i V) as (r & Rr & _ & _ & _ & Q & _). exists r, (run_events RS i).
  split; [exact Rr|]. intros HD HB. destruct V as (Hok & _ & _).
  assert (HI : forall j, (0 <= j < nsurf i)%Z -> elem r A_Boozer_I j = Some (Some (bI i (surf i j)))) by (intros; now apply (elem_vec _ _ _ (fun k => bI i (surf i k)) _ (q_I _ _ _ Q))).
  assert (HG : forall j, (0 <= j < nsurf i)%Z -> elem r A_Boozer_G j = Some (Some (bG i (surf i j)))) by (intros; now apply (elem_vec _ _ _ (fun k => bG i (surf i k)) _ (q_G _ _ _ Q))).
  assert (D : forall j, (0 <= j < nsurf i)%Z -> bG i (surf i j) + iota i (surf i j) * bI i (surf i j) <> 0) by (intros j Hj; apply (HD j); auto).
  pose proof (ok_surf _ _ Hok) as Hs. pose proof (alike_tight i) as AT. set (i0 := ball_inp i) in *. 
  assert (Ft : forall f, In f l -> In f (outs true)).
  { intros f Hf. specialize (Hl f Hf). destruct (asym i); [exact Hl|]. cbn [outs]. now apply in_or_app; left. }
  destruct (tight_uniform (mnboz i) (nsurf i) l (fun f k b => o_coef i0 (surf i b) f k) (fun f k b => o_coef i (surf i b) f k))
    as (C1 & e1 & M1 & HC1 & He1 & N1).
  { intros f k b Hf Hk Hb. apply (s_coef _ _ _ _ sim_tight _ _ AT Hok (surf i b) (Hs b Hb) (D b Hb) f k (Ft f Hf)).
    intros Hg j Hj. assert (X : p_b i (surf i b) (thg i j) (zeg i j) <> 0); [|change (p_b i (surf i b) (thg i j) (zeg i j) * p_b i (surf i b) (thg i j) (zeg i j) <> 0); now apply Rmult_integral_contrapositive_currified].
    apply b_grid; auto. intros a0 b0 Ha0 Hb0. apply HB; auto. destruct Hg as [-> | ->]; auto. }
  destruct (tight_uniform 1 (nsurf i) [A_Boozer_I; A_Boozer_G]
      (fun f k b => match f with A_Boozer_I => bI i0 (surf i b) | _ => bG i0 (surf i b) end)
      (fun f k b => match f with A_Boozer_I => bI i (surf i b) | _ => bG i (surf i b) end)) as (C2 & e2 & M2 & HC2 & He2 & N2).
  { intros f k b Hf Hk Hb. cbn in Hf. destruct Hf as [<-|[<-|[]]].
    - exact (s_bI _ _ _ _ sim_tight _ _ AT (surf i b) (Hs b Hb)).
    - exact (s_bG _ _ _ _ sim_tight _ _ AT (surf i b) (Hs b Hb)). }
  exists (Rmax C1 C2), (Rmin e1 e2), (Rmax M1 M2). split; [now apply Rmin_glb_lt|].
  intros S v e M i' o' HA He HM Hr V'.
  destruct (run_total o' i' V') as (r' & Rr' & _ & _ & _ & Q' & _). exists r', (run_events S i'). split; [exact Rr'|].
  pose proof (lo_pos _ _ _ _ HA) as Pe.
  pose proof (Rmin_l e1 e2). pose proof (Rmin_r e1 e2). pose proof (Rmax_l M1 M2). pose proof (Rmax_r M1 M2).
  pose proof (Rmax_l C1 C2). pose proof (Rmax_r C1 C2).
  pose proof (sim_within S v e M HA) as SW. pose proof (alike_within S v e M i' i Hr) as AW. fold i0 in AW.
  assert (Ens : nsurf i' = nsurf i) by apply Hr.
  assert (Emn : mnboz i' = mnboz i) by (unfold mnboz; destruct Hr; congruence).
  assert (Eas : asym i' = asym i) by apply Hr. pose proof (ball_ok i Hok) as Hok0. fold i0 in Hok0.
  split.
  - intros f j Hf Hj. pose proof (N2 e M Pe ltac:(lra) ltac:(lra) f 0%Z j Hf ltac:(lia) Hj) as K.
    assert (Es : surf i' j = surf i j) by (now apply Hr). cbn [In] in Hf. destruct Hf as [<-|[<-|[]]].
    + exists (bI i' (surf i' j)), (bI i (surf i j)). split; [now apply HI|]. split.
      { apply (elem_vec _ _ _ (fun k => bI i' (surf i' k)) _ (q_I _ _ _ Q')). lia. }
      rewrite Es. destruct (s_bI _ _ _ _ SW _ _ AW (surf i j) (Hs j Hj)) as (Sx & Ix). split; [exact Sx|].
      intros w Hw. destruct (K w (Ix w Hw)) as (c & Ec & Bc). exists c. split; [exact Ec|]. cbn in Bc. nra.
    + exists (bG i' (surf i' j)), (bG i (surf i j)). split; [now apply HG|]. split.
      { apply (elem_vec _ _ _ (fun k => bG i' (surf i' k)) _ (q_G _ _ _ Q')). lia. }
      rewrite Es. destruct (s_bG _ _ _ _ SW _ _ AW (surf i j) (Hs j Hj)) as (Sx & Ix). split; [exact Sx|].
      intros w Hw. destruct (K w (Ix w Hw)) as (c & Ec & Bc). exists c. split; [exact Ec|]. cbn in Bc. nra.
  - intros f k j Hf Hk Hj. pose proof (N1 e M Pe ltac:(lra) ltac:(lra) f k j Hf Hk Hj) as K.
    assert (Es : surf i' j = surf i j) by (now apply Hr).
    exists (o_coef i' (surf i' j) f k), (o_coef i (surf i j) f k). split.
    { apply (elem2_mat _ _ _ _ (fun k b => o_coef i (surf i b) f k) _ _ (q_out _ _ _ Q f (Hl f Hf))); auto. }
    split.
    { apply (elem2_mat _ _ _ _ (fun k b => o_coef i' (surf i' b) f k) _ _ (q_out _ _ _ Q' f ltac:(rewrite Eas; exact (Hl f Hf)))); lia. }
    rewrite Es. destruct (s_coef _ _ _ _ SW _ _ AW Hok0 (surf i j) (Hs j Hj) I f k (Ft f Hf)) as (Sx & Ix); [auto|]. split; [exact Sx|].
    intros w Hw. destruct (K w (Ix w Hw)) as (c & Ec & Bc). exists c. split; [exact Ec|]. cbn in Bc. nra.
Qed.

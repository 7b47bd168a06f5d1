(** The bounds of Cert.v hold in loose arithmetics as well. *)
From Coq Require Import ZArith QArith List String Bool Lia Reals Lra Psatz Qreals Floats.SpecFloat.
From Verif Require Import Scalar Prog Model Wp Func Step TrigProof InitProof SurfProof RunProof Par FuncExt Spec RunThms
  RSum RSpec RThms RExamples RoundSpec Round Sim Cert CertProof CertThm CertEx Ieee IeeeProof IeeeThm Fma LooseProof FmaProof FmaThm.
Import ListNotations.
Local Open Scope Z_scope.
Local Open Scope R_scope.

(** An accurate arithmetic that delivers w wherever it may *)
Section W.
Variables (er Mr : R) (w : option R).
Hypothesis Per : 0 <= er.
Hypothesis PMr : 4 <= Mr.
Definition pick (t : option R) : option R :=
  match t with
  | Some t => if Rle_dec (Rabs t) Mr then
                match w with Some c => if Rle_dec (Rabs (c - t)) (er * (1 + Rabs t)) then Some c else Some t | None => Some t end
              else None
  | None => None
  end.
Definition W : Scalar := {|
  F := option R;
  fadd := fun x y => pick (on2 (fun a b => Some (a + b)) x y); fsub := fun x y => pick (on2 (fun a b => Some (a - b)) x y);
  fmul := fun x y => pick (on2 (fun a b => Some (a * b)) x y); fdiv := fun x y => pick (on2 quo x y);
  fneg := option_map Ropp; fofZ := fun z => pick (Some (IZR z)); flit := fun q => pick (Some (Q2R q)); fpi := pick (Some PI);
  fsqrt := fun x => x; fcos := fun x => pick (on1 (fun a => Some (cos a)) x); fsin := fun x => pick (on1 (fun a => Some (sin a)) x);
  fabs := fun x => x; flt := fun _ _ => false; ftoZ := fun _ => None |}.
Definition vW (x : F W) (c : R) : Prop := x = Some c.
Lemma pick_ok t : Rabs t <= Mr -> exists c, pick (Some t) = Some c /\ Rabs (c - t) <= er * (1 + Rabs t).
Proof.
  intros H. unfold pick. destruct (Rle_dec (Rabs t) Mr) as [_|N]; [|contradiction]. pose proof (Rabs_pos t).
  assert (Z : Rabs (t - t) <= er * (1 + Rabs t)) by (replace (t - t) with 0 by ring; rewrite Rabs_R0; nra).
  destruct w as [c|]; [|eauto]. destruct (Rle_dec (Rabs (c - t)) (er * (1 + Rabs t))); eauto.
Qed.
Lemma W_accurate : accurate W vW er Mr.
Proof.
  assert (PP : Rabs PI = PI) by (apply Rabs_right; pose proof PI_RGT_0; lra). pose proof PI_4.
  constructor; unfold vW.
  - exact Per.
  - intros x y a b -> -> H1. now apply pick_ok.
  - intros x y a b -> -> H1. now apply pick_ok.
  - intros x y a b -> -> H1. now apply pick_ok.
  - intros x y a b -> -> Hb H1. cbn [W fdiv on2]. unfold quo. destruct (Req_EM_T b 0); [contradiction|]. now apply pick_ok.
  - intros x a ->. reflexivity.
  - intros z H1. now apply pick_ok.
  - intros q H1. now apply pick_ok.
  - pose proof (pick_ok PI ltac:(lra)) as K. rewrite PP in K. exact K.
  - intros x a ->. apply pick_ok. assert (Rabs (cos a) <= 1) by (apply Rabs_le, COS_bound). lra.
  - intros x a ->. apply pick_ok. assert (Rabs (sin a) <= 1) by (apply Rabs_le, SIN_bound). lra.
Qed.
(** whatever may be delivered is what this arithmetic delivers *)
Lemma pick_eq t c : delivers er Mr t w -> pick t = Some c -> w = Some c.
Proof.
  destruct t as [t|]; [|discriminate]. unfold pick. intros D. destruct (Rle_dec (Rabs t) Mr) as [L|N]; [|discriminate].
  destruct (D L) as (d & -> & Bd). destruct (Rle_dec (Rabs (d - t)) (er * (1 + Rabs t))); [auto|contradiction].
Qed.
End W.

Section P.
Variables (p e M pi : Z) (n : nat) (S : Scalar) (v : F S -> option R -> Prop) (er Mr : R).
Hypothesis Hp : (0 <= p)%Z.
Hypothesis HL : loose S v er Mr.
Hypothesis PMr : 4 <= Mr.
Hypothesis He : er * IZR (2 ^ p) <= IZR e.
Hypothesis HM : IZR M <= Mr * IZR (2 ^ p).
Notation C := (CERT p e M pi n).
Let Per : 0 <= er. Proof. apply (lo_pos _ _ _ _ HL). Qed.

Definition lgood (x : F S) (a : R) (q : num) : Prop :=
  match q with
  | None => True
  | Some (y, E) => enc p y a /\ some S v x /\ forall w, v x w -> exists c, w = Some c /\ Rabs (c - a) * IZR (2 ^ p) <= IZR E
  end.
Notation gw w := (good p (W er Mr w) (vW er Mr w)).
Lemma lgood_at x a y E w u : lgood x a (Some (y, E)) -> v x u -> gw w u a (Some (y, E)).
Proof. intros (H1 & _ & H2) Hu. split; [exact H1|]. destruct (H2 u Hu) as (c & -> & Bc). exists c. split; [reflexivity|exact Bc]. Qed.
Lemma lgood_of (z : F S) t q : some S v z ->
  (forall w, v z w -> exists r, delivers er Mr r w /\ gw w (pick er Mr w r) t q) -> lgood z t q.
Proof.
  intros Sz H. destruct q as [(y & E)|]; [|exact I].
  destruct Sz as (w0 & Hw0). split; [destruct (H w0 Hw0) as (r & _ & (G & _)); exact G|]. split; [now exists w0|].
  intros w Hw. destruct (H w Hw) as (r & D & (_ & c & Vc & Bc)). exists c. split; [|exact Bc]. exact (pick_eq er Mr w r c D Vc).
Qed.
Lemma lgood_two f g t (cop : num -> num -> num) x y a b qa qb : loose2 S v er Mr f g ->
  (forall w u u', gw w u a qa -> gw w u' b qb -> gw w (pick er Mr w (on2 g u u')) t (cop qa qb)) ->
  (qa = None \/ qb = None -> cop qa qb = None) ->
  lgood x a qa -> lgood y b qb -> lgood (f x y) t (cop qa qb).
Proof.
  intros H1 H2 Hn Gx Gy. destruct qa as [(ya & Ea)|]; [|rewrite Hn by auto; exact I]. destruct qb as [(yb & Eb)|]; [|rewrite Hn by auto; exact I].
  destruct (H1 x y) as (Sf & If); [apply Gx|apply Gy|]. apply lgood_of; [exact Sf|]. intros w Hw.
  destruct (If w Hw) as (u & u' & Vu & Vu' & D). exists (on2 g u u'). split; [exact D|]. apply H2; [exact (lgood_at _ _ _ _ w _ Gx Vu)|exact (lgood_at _ _ _ _ w _ Gy Vu')].
Qed.
Lemma lgood_one f g t (cop : num -> num) x a qa : loose1 S v er Mr f g ->
  (forall w u, gw w u a qa -> gw w (pick er Mr w (on1 g u)) t (cop qa)) ->
  (qa = None -> cop qa = None) -> lgood x a qa -> lgood (f x) t (cop qa).
Proof.
  intros H1 H2 Hn Gx. destruct qa as [(ya & Ea)|]; [|rewrite Hn by auto; exact I].
  destruct (H1 x) as (Sf & If); [apply Gx|]. apply lgood_of; [exact Sf|]. intros w Hw.
  destruct (If w Hw) as (u & Vu & D). exists (on1 g u). split; [exact D|]. apply H2. exact (lgood_at _ _ _ _ w _ Gx Vu).
Qed.
Lemma lgood_const x t q : loose0 S v er Mr x t -> (forall w, gw w (pick er Mr w (Some t)) t q) -> lgood x t q.
Proof. intros (Sx & Ix) H. apply lgood_of; [exact Sx|]. intros w Hw. exists (Some t). split; [now apply Ix|apply H]. Qed.

Lemma sim_loose : simul (both S) C (fun x q => lgood (fst x) (snd x) q) (fun _ => True).
Proof.
  pose proof (fun w => W_accurate er Mr w Per PMr) as HA.
  destruct HL as [L1 L2 L3 L4 L5 L6 L7 L8 L9 L10 L11].
  constructor; cbn [both CERT fadd fsub fmul fdiv fneg fcos fsin fofZ flit fpi fst snd]; auto.
  - intros x y qa qb. apply lgood_two with (1 := L2); [|intros [-> | ->]; [reflexivity|now destruct qa as [[]|]]].
    intros w u u'. apply (good_add p e M Hp _ _ _ _ (HA w) He HM).
  - intros x y qa qb. apply lgood_two with (1 := L3); [|intros [-> | ->]; [reflexivity|now destruct qa as [[]|]]].
    intros w u u'. apply (good_sub p e M Hp _ _ _ _ (HA w) He HM).
  - intros x y qa qb. apply lgood_two with (1 := L4); [|intros [-> | ->]; [reflexivity|now destruct qa as [[]|]]].
    intros w u u'. apply (good_mul p e M Hp _ _ _ _ (HA w) He HM).
  - intros x y qa qb Gx Gy _. revert Gx Gy. apply lgood_two with (1 := L5); [|intros [-> | ->]; [reflexivity|now destruct qa as [[]|]]].
    intros w u u'. apply (good_div p e M Hp _ _ _ _ (HA w) He HM).
  - intros x q. destruct q as [(y & E)|]; [|auto]. intros (H1 & H2 & H3). cbn [option_map fst snd].
    destruct (L6 (fst x) H2) as (Sf & If). split; [now apply enc_neg|]. split; [exact Sf|]. intros w Hw. destruct (If w Hw) as (u & Vu & ->).
    destruct (H3 u Vu) as (c & -> & Bc). exists (- c). split; [reflexivity|]. replace (- c - - snd x) with (- (c - snd x)) by ring. now rewrite Rabs_Ropp.
  - intros x q. apply lgood_one with (1 := L7); [|now intros ->].
    intros w u. apply (good_cos p e n Hp _ _ _ _ (HA w) He).
  - intros x q. apply lgood_one with (1 := L8); [|now intros ->].
    intros w u. apply (good_sin p e n Hp _ _ _ _ (HA w) He).
  - intros z. apply lgood_const; [apply L9|]. intros w. apply (good_ofZ p e M Hp _ _ _ _ (HA w) He HM).
  - intros q. apply lgood_const; [apply L10|]. intros w. apply (good_lit p e M Hp _ _ _ _ (HA w) He HM).
  - apply lgood_const; [apply L11|]. intros w. apply (good_pi p e M pi n Hp _ _ _ _ (HA w) He HM).
Qed.
Variables (i' : Inp S) (i : Inp RS) (q : Inp C).
Hypothesis Hr : alike S RS (input S v er) i' i.
Lemma zip_right : alike (both S) RS (fun x a => input S v er (fst x) a /\ snd x = a) (zip S i' i) i.
Proof.
  destruct Hr as [D1 D2 D3 D4 D5 D6 D7 D8 D9 D10 D11 D12 D13 D14 D15 D16 D17 D18 D19 D20 D21 D22 D23 D24 D25 D26].
  constructor; try reflexivity; try (intros; reflexivity).
  - intros j Hj. split; [exact (D14 j Hj)|reflexivity].
  - intros k j Hk Hj. split; [exact (D15 k j Hk Hj)|reflexivity].
  - intros k j Hk Hj. split; [exact (D16 k j Hk Hj)|reflexivity].
  - intros k j Hk Hj. split; [exact (D17 k j Hk Hj)|reflexivity].
  - intros k j Hk Hj. split; [exact (D18 k j Hk Hj)|reflexivity].
  - intros k j Hk Hj. split; [exact (D19 k j Hk Hj)|reflexivity].
  - intros k j Hk Hj. split; [exact (D20 k j Hk Hj)|reflexivity].
  - intros As k j Hk Hj. split; [exact (D21 As k j Hk Hj)|reflexivity].
  - intros As k j Hk Hj. split; [exact (D22 As k j Hk Hj)|reflexivity].
  - intros As k j Hk Hj. split; [exact (D23 As k j Hk Hj)|reflexivity].
  - intros As k j Hk Hj. split; [exact (D24 As k j Hk Hj)|reflexivity].
  - intros As k j Hk Hj. split; [exact (D25 As k j Hk Hj)|reflexivity].
  - intros As k j Hk Hj. split; [exact (D26 As k j Hk Hj)|reflexivity].
Qed.
Lemma zip_left : alike S (both S) (fun x y => x = fst y) i' (zip S i' i).
Proof. destruct Hr. constructor; cbn; auto; try (intros; reflexivity); try (intros _); intros k j Hk Hj; reflexivity. Qed.
Hypothesis Hc : covers p e M pi n er i q.
Lemma zip_cert : alike (both S) C (fun x y => lgood (fst x) (snd x) y) (zip S i' i) q.
Proof.
  apply (alike_trans _ _ _ _ _ _ _ i _ ) with (2 := Hc) (3 := zip_right). intros x a z ((Sx & Ix) & E) K. unfold knows in K.
  destruct z as [((m & r) & E0)|]; [|exact I]. destruct K as (K1 & K2). unfold lgood. rewrite E. split; [exact K1|]. split; [exact Sx|].
  intros w Hw. destruct (Ix w Hw) as (c & -> & Bc). exists c. split; [reflexivity|].
  eapply Rle_trans; [apply Rmult_le_compat_r; [apply Rlt_le, B_pos; exact Hp|exact Bc]|]. exact K2.
Qed.
End P.

Theorem loose_certified : forall p e M pi n (S : Scalar) v er Mr (i : Inp RS) (i' : Inp S) (q : Inp (CERT p e M pi n)) o o' oq,
  (0 <= p)%Z -> loose S v er Mr -> 4 <= Mr -> er * IZR (2 ^ p) <= IZR e -> IZR M <= Mr * IZR (2 ^ p) ->
  alike S RS (input S v er) i' i -> covers p e M pi n er i q -> valid o i -> valid o' i' -> valid oq q ->
  exists r ev r' ev' rq evq, run_ok o r ev /\ run_ok o' r' ev' /\ run_ok oq rq evq /\
    (forall f j, In f [A_Boozer_I; A_Boozer_G] -> (0 <= j < nsurf i)%Z -> exists y x z,
       elem r f j = Some (Some y) /\ elem r' f j = Some (Some x) /\ elem rq f j = Some (Some z) /\
       forall m rad E, z = Some (m, rad, E) ->
         some S v x /\ forall w, v x w -> exists c, w = Some c /\ Rabs (c - y) * IZR (2 ^ p) <= IZR E) /\
    (forall f k j, In f (outs (asym i)) -> (0 <= k < mnboz i)%Z -> (0 <= j < nsurf i)%Z -> exists y x z,
       elem2 r f k j = Some (Some y) /\ elem2 r' f k j = Some (Some x) /\ elem2 rq f k j = Some (Some z) /\
       forall m rad E, z = Some (m, rad, E) ->
         some S v x /\ forall w, v x w -> exists c, w = Some c /\ Rabs (c - y) * IZR (2 ^ p) <= IZR E).
Proof.
  intros p e M pi n S v er Mr i i' q o o' oq Hp HA H4 He HM Hr Hc V V' Vq.
  pose proof (ok_valid _ _ (zip_ok S i' i (proj1 V))) as Vz.
  destruct (sim_runs _ _ _ (sim_fst S) i' (zip S i' i) o' (obj_of (zip S i' i)) (zip_left S v er i' i Hr) V' Vz)
    as (rz & evz & r' & ev' & Rz & R' & A1 & A2).
  destruct (sim_runs _ _ _ (sim_snd S) i (zip S i' i) o (obj_of (zip S i' i)) (alike_snd S i' i) V Vz)
    as (rz' & evz' & r & ev & Rz' & R0 & B1 & B2).
  destruct (sim_runs _ _ _ (sim_loose p e M pi n S v er Mr Hp HA H4 He HM) (zip S i' i) q (obj_of (zip S i' i)) oq
    (zip_cert p e M pi n S v er Hp i' i q Hr Hc) Vz Vq) as (rq & evq & rz'' & evz'' & Rq & Rz'' & C1 & C2).
  assert (E1 : rz' = rz) by (unfold run_ok in Rz, Rz'; rewrite Rz in Rz'; injection Rz' as -> _; reflexivity). subst rz'.
  assert (E2 : rz'' = rz) by (unfold run_ok in Rz, Rz''; rewrite Rz in Rz''; injection Rz'' as -> _; reflexivity). subst rz''.
  assert (N1 : nsurf q = nsurf i) by (symmetry; apply Hc). assert (N2 : mnboz q = mnboz i) by (destruct Hc; unfold mnboz; congruence).
  assert (N3 : asym q = asym i) by (symmetry; apply Hc).
  exists r, ev, r', ev', rq, evq. split; [exact R0|]. split; [exact R'|]. split; [exact Rq|]. split.
  - intros f j Hf Hj. destruct (A1 f j Hf Hj) as (x & t & Et & Ex & ->). destruct (B1 f j Hf Hj) as (y & t' & Et' & Ey & ->).
    destruct (C1 f j Hf ltac:(lia)) as (t'' & z & Ez & Et'' & G). rewrite Et in Et', Et''. injection Et' as <-. injection Et'' as <-.
    exists (snd t), (fst t), z. split; [exact Ey|]. split; [exact Ex|]. split; [exact Ez|]. intros m rad E ->. exact (proj2 G).
  - intros f k j Hf Hk Hj. destruct (A2 f k j Hf Hk Hj) as (x & t & Et & Ex & ->). destruct (B2 f k j Hf Hk Hj) as (y & t' & Et' & Ey & ->).
    destruct (C2 f k j ltac:(rewrite N3; exact Hf) ltac:(lia) ltac:(lia)) as (t'' & z & Ez & Et'' & G). rewrite Et in Et', Et''. injection Et' as <-. injection Et'' as <-.
    exists (snd t), (fst t), z. split; [exact Ey|]. split; [exact Ex|]. split; [exact Ez|]. intros m rad E ->. exact (proj2 G).
Qed.

(** The tokamak of C77, with doubles and any contraction: the same bound *)
Theorem tok_fma : forall pi cos_ sin', libm_ok 53 1024 pi cos_ sin' (powerRZ 2 (-51)) ->
  forall (i0 : Inp (IEEE 53 1024 pi cos_ sin')) (i' : Inp (FMA 53 1024 pi cos_ sin')) o',
  rounded (S := IEEE 53 1024 pi cos_ sin') (sf_is 53 1024) (powerRZ 2 (-51)) i0 (ex_tok RS) ->
  alike (FMA 53 1024 pi cos_ sin') (IEEE 53 1024 pi cos_ sin') (fun X x => X = only x) i' i0 -> valid o' i' ->
  exists r ev r' ev', run_ok (obj_of (ex_tok RS)) r ev /\ run_ok o' r' ev' /\
    (forall f j, In f [A_Boozer_I; A_Boozer_G] -> (0 <= j < 2)%Z -> exists y X,
       elem r f j = Some (Some y) /\ elem r' f j = Some (Some X) /\ (exists x, X x) /\
       forall x, X x -> exists c, sf_is 53 1024 (fst x) c /\ Rabs (c - y) <= powerRZ 2 (-41)) /\
    (forall f k j, In f (outs false) -> (0 <= k < 2)%Z -> (0 <= j < 2)%Z -> exists y X,
       elem2 r f k j = Some (Some y) /\ elem2 r' f k j = Some (Some X) /\ (exists x, X x) /\
       forall x, X x -> exists c, sf_is 53 1024 (fst x) c /\ Rabs (c - y) <= powerRZ 2 (-41)).
Proof.
  intros pi cos_ sin' L i0 i' o' Hr Ha V'.
  assert (HA : loose (FMA 53 1024 pi cos_ sin') (uses 53 1024) (powerRZ 2 (-51)) (powerRZ 2 1023)).
  { apply (FMA_loose 53 1024 ltac:(lia) ltac:(lia)); [|exact L]. unfold sf_eps. apply b_le; lia. }
  assert (H4 : 4 <= powerRZ 2 1023) by (replace 4 with (b 2) by (rewrite b_Z by lia; reflexivity); apply b_le; lia).
  assert (HM : IZR (2 ^ 160) <= powerRZ 2 1023 * IZR (2 ^ 96)).
  { apply Rle_trans with (powerRZ 2 64 * IZR (2 ^ 96)).
    - apply Req_le. cbn [powerRZ]. rewrite (pow_IZR 2), <- mult_IZR. apply f_equal. vm_compute. reflexivity.
    - apply Rmult_le_compat_r; [apply IZR_le; apply Z.pow_nonneg; lia|]. apply b_le; lia. }
  destruct (loose_certified 96 (2 ^ 45) (2 ^ 160) tok_pi 12 _ _ _ _ (ex_tok RS) i' (ex_tok CT) (obj_of (ex_tok RS)) o' (obj_of (ex_tok CT))
              ltac:(lia) HA H4 eps_e HM (only_alike 53 1024 pi cos_ sin' _ i' i0 _ Ha Hr) tok_covers (ok_valid RS _ (tok_ok RS)) V' (ok_valid _ _ (tok_ok _)))
    as (r & ev & r' & ev' & rq & evq & R1 & R2 & R3 & T1 & T2).
  exists r, ev, r', ev'. split; [exact R1|]. split; [exact R2|].
  pose proof tok_checked as K. unfold tok_check in K. unfold run_ok in R3. rewrite R3 in K. apply andb_true_iff in K as (K1 & K2).
  assert (B : forall c y E, Rabs (c - y) * IZR (2 ^ 96) <= IZR E -> (E <= 2 ^ 55)%Z -> Rabs (c - y) <= powerRZ 2 (-41)).
  { intros c y E H1 H2. apply IZR_le in H2. assert (P : 0 < IZR (2 ^ 96)) by (apply IZR_lt; reflexivity).
    apply Rmult_le_reg_r with (IZR (2 ^ 96)); [exact P|].
    assert (Q : powerRZ 2 (-41) * IZR (2 ^ 96) = IZR (2 ^ 55)).
    { assert (E1 : IZR (2 ^ 96) = IZR (2 ^ 41) * IZR (2 ^ 55)) by (rewrite <- mult_IZR; reflexivity). rewrite E1, <- Rmult_assoc.
      assert (E2 : powerRZ 2 (-41) * IZR (2 ^ 41) = 1); [|rewrite E2; ring]. change (2 ^ 41)%Z with 2199023255552%Z. cbn [powerRZ].
      replace (2 ^ Pos.to_nat 41) with (IZR 2199023255552); [apply Rinv_l; lra|]. rewrite (pow_IZR 2). apply f_equal. vm_compute. reflexivity. }
    rewrite Q. lra. }
  assert (I2 : forall j, (0 <= j < 2)%Z -> In j [0; 1]%Z).
  { intros j Hj. assert (j = 0 \/ j = 1)%Z as [-> | ->] by lia; cbn; auto. }
  assert (KK : forall (X : cell -> Prop) y E, (E <= 2 ^ 55)%Z -> some (FMA 53 1024 pi cos_ sin') (uses 53 1024) X ->
     (forall w, uses 53 1024 X w -> exists c, w = Some c /\ Rabs (c - y) * IZR (2 ^ 96) <= IZR E) ->
     (exists x, X x) /\ forall x, X x -> exists c, sf_is 53 1024 (fst x) c /\ Rabs (c - y) <= powerRZ 2 (-41)).
  { intros X y E HE Sx Hx. split; [now apply some_any in Sx|]. intros x Xx. destruct (use_self 53 1024 X x Xx) as [(c & Ic & Uc)|(_ & Un)].
    - exists c. split; [exact Ic|]. destruct (Hx _ Uc) as (d & Ed & Bd). injection Ed as <-. exact (B _ _ _ Bd HE).
    - destruct (Hx _ Un) as (d & Ed & _). discriminate. }
  split.
  - intros f j Hf Hj. destruct (T1 f j Hf Hj) as (y & x & z & Ey & Ex & Ez & H). rewrite forallb_forall in K1. specialize (K1 f Hf).
    rewrite forallb_forall in K1. specialize (K1 j (I2 j Hj)). rewrite Ez in K1. cbn [tok_small] in K1. destruct z as [((m & rad) & E)|]; [|discriminate].
    apply Z.leb_le in K1. destruct (H m rad E eq_refl) as (Sx & Hx). exists y, x. split; [exact Ey|]. split; [exact Ex|]. exact (KK x y E K1 Sx Hx).
  - intros f k j Hf Hk Hj. destruct (T2 f k j Hf Hk Hj) as (y & x & z & Ey & Ex & Ez & H). rewrite forallb_forall in K2. specialize (K2 f Hf).
    rewrite forallb_forall in K2. specialize (K2 k (I2 k Hk)). rewrite forallb_forall in K2. specialize (K2 j (I2 j Hj)). rewrite Ez in K2.
    cbn [tok_small] in K2. destruct z as [((m & rad) & E)|]; [|discriminate].
    apply Z.leb_le in K2. destruct (H m rad E eq_refl) as (Sx & Hx). exists y, x. split; [exact Ey|]. split; [exact Ex|]. exact (KK x y E K2 Sx Hx).
Qed.
Lemma tok_only : forall pi cos_ sin', libm_ok 53 1024 pi cos_ sin' (powerRZ 2 (-51)) -> exists i0 i',
  rounded (S := IEEE 53 1024 pi cos_ sin') (sf_is 53 1024) (powerRZ 2 (-51)) i0 (ex_tok RS) /\
  alike (FMA 53 1024 pi cos_ sin') (IEEE 53 1024 pi cos_ sin') (fun X x => X = only x) i' i0 /\ valid (obj_of i') i'.
Proof.
  intros pi cos_ sin' L. destruct (tok_rounded pi cos_ sin' L) as (R0 & V0). exists (ex_tok _), (only_inp 53 1024 pi cos_ sin' (ex_tok _)).
  split; [exact R0|]. split; [apply only_self|]. apply ok_valid, only_ok. exact (proj1 V0).
Qed.

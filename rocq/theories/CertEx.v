(** A case of C77: a tokamak in double precision. *)
From Coq Require Import ZArith QArith List String Bool Lia Reals Lra Psatz Qreals Floats.SpecFloat.
From Verif Require Import Scalar Prog Model Wp Func Step TrigProof InitProof SurfProof RunProof Par FuncExt Spec RunThms
  RSum RSpec RThms RExamples RoundSpec Round Sim Cert CertProof CertThm Ieee IeeeProof IeeeThm.
Import ListNotations.
Local Open Scope Z_scope.

(** R = 1 + 0.3 cos th, Z = 0.3 sin th and so on; two surfaces *)
Definition tok_coef (S : Scalar) (a b : Q) : Z -> Z -> F S := fun k js =>
  flit S (if k =? 0 then a else if js =? 0 then b else (b * (3 # 2))%Q).
Definition ex_tok (S : Scalar) : Inp S :=
  {| asym := false; nfp := 1; mpol := 2; ntor := 0; mnmax := 2; mpolq := 1; ntorq := 0; mnmaxq := 2;
     nsin := 2; mboz := 2; nboz := 0; verb := 0;
     xm := fun k => k; xn := fun _ => 0; xmq := fun k => k; xnq := fun _ => 0;
     nsurf := 2; surf := fun k => k;
     sin_ := fun k => flit S (1 # 4); iota := fun k => flit S (9 # 10);
     rmnc := tok_coef S 1 (2 # 10); zmns := tok_coef S 0 (2 # 10); lmns := tok_coef S 0 (-1 # 10);
     bmnc := tok_coef S 1 (-2 # 10); bsubumnc := tok_coef S (5 # 100) (1 # 100); bsubvmnc := tok_coef S (11 # 10) (-1 # 1000);
     rmns := tok_coef S 0 0; zmnc := tok_coef S 0 0; lmnc := tok_coef S 0 0;
     bmns := tok_coef S 0 0; bsubumns := tok_coef S 0 0; bsubvmns := tok_coef S 0 0 |}.
Definition tok_pi : Z := Eval vm_compute in (31415926535897932384626433832795028841971693993751058 * 2 ^ 95 / 10 ^ 52).
Notation CT := (CERT 96 (2 ^ 45) (2 ^ 160) tok_pi 12).
Definition tok_small (b : Z) (x : option (option (F CT))) : bool :=
  match x with Some (Some (Some (_, _, E))) => E <=? b | _ => false end.
Definition tok_check (b : Z) : bool :=
  match run (bx_run CT) (obj_of (ex_tok CT)) with
  | ROk _ o _ =>
      forallb (fun f => forallb (fun j => tok_small b (elem o f j)) [0; 1]) [A_Boozer_I; A_Boozer_G] &&
      forallb (fun f => forallb (fun k => forallb (fun j => tok_small b (elem2 o f k j)) [0; 1]) [0; 1]) (outs false)
  | _ => false
  end.
Lemma tok_checked : tok_check (2 ^ 55) = true. Proof. vm_compute. reflexivity. Qed.

Lemma tok_ok S : ok_inp (ex_tok S).
Proof.
  constructor; cbn [ex_tok nfp mpol ntor mnmax mpolq ntorq mnmaxq nsin mboz nboz nsurf xm xn xmq xnq surf];
    unfold INT_MAX; try (intros; lia);
    try (lazymatch goal with |- forall _, _ => idtac | _ => vm_compute; discriminate end).
  - intros k Hk. pattern k; apply (ex_range2 k _ Hk); vm_compute; repeat split; discriminate.
  - intros k Hk. pattern k; apply (ex_range2 k _ Hk); vm_compute; repeat split; discriminate.
Qed.
Local Open Scope R_scope.
Lemma lit_knows p e M er x : (0 <= p)%Z -> 0 <= er -> er * IZR (2 ^ p) <= IZR e -> knows p er (Q2R x) (c_lit p e M x).
Proof.
  intros Hp P He. unfold c_lit, mk, knows. pose proof (B_pos p Hp) as PB.
  set (y := (Qnum x * one p / Z.pos (Qden x), 1)%Z). assert (Hy : enc p y (Q2R x)).
  { unfold enc, y. cbn [fst snd]. pose proof (floor_div (Qnum x * one p) (Zpos (Qden x)) ltac:(lia)) as K. rewrite mult_IZR in K. unfold one in *.
    rewrite Rabs_minus_sym. unfold Q2R. replace (IZR (Qnum x) * / IZR (Z.pos (Qden x)) * IZR (2 ^ p)) with (IZR (Qnum x) * IZR (2 ^ p) / IZR (Z.pos (Qden x))); [exact K|].
    unfold Rdiv. ring. }
  destruct (Z.leb_spec (i_max y + 0) M) as [L|L]; [|exact I]. unfold y at 1. split; [exact Hy|].
  pose proof (enc_max p _ _ Hy) as Ha. rewrite Rabs_mult, (Rabs_right (IZR _)) in Ha by lra.
  pose proof (up_ok p Hp (e * (one p + (i_max y + 0)))) as U. rewrite Z.add_0_l. set (u := IZR (up _ _)) in *.
  rewrite mult_IZR, !plus_IZR, Rplus_0_r in U. unfold one in U. pose proof (Rabs_pos (Q2R x)) as P0.
  apply Rmult_le_reg_r with (IZR (2 ^ p)); [exact PB|]. eapply Rle_trans; [|exact U].
  replace (er * (1 + Rabs (Q2R x)) * IZR (2 ^ p) * IZR (2 ^ p)) with (er * IZR (2 ^ p) * (IZR (2 ^ p) + Rabs (Q2R x) * IZR (2 ^ p))) by ring.
  assert (0 <= er * IZR (2 ^ p)) by nra. apply Rmult_le_compat; nra.
Qed.
Lemma eps_e : powerRZ 2 (-51) * IZR (2 ^ 96) <= IZR (2 ^ 45).
Proof.
  assert (E : IZR (2 ^ 96) = IZR (2 ^ 45) * IZR (2 ^ 51)) by (rewrite <- mult_IZR; reflexivity). rewrite E.
  assert (K : powerRZ 2 (-51) * IZR (2 ^ 51) = 1). { change (2 ^ 51)%Z with 2251799813685248%Z. cbn [powerRZ]. replace (2 ^ Pos.to_nat 51) with (IZR 2251799813685248); [apply Rinv_l; lra|]. rewrite (pow_IZR 2). apply f_equal. vm_compute. reflexivity. }
  apply Req_le. rewrite <- (Rmult_1_r (IZR (2 ^ 45))) at 2. rewrite <- K. ring.
Qed.
Lemma tok_covers : covers 96 (2 ^ 45) (2 ^ 160) tok_pi 12 (powerRZ 2 (-51)) (ex_tok RS) (ex_tok CT).
Proof.
  assert (K : forall x, knows 96 (powerRZ 2 (-51)) (Q2R x) (c_lit 96 (2 ^ 45) (2 ^ 160) x)).
  { intros x. apply lit_knows; [lia| |exact eps_e]. apply powerRZ_le. lra. }
  constructor; try reflexivity; try (intros; discriminate).
  { intros j Hj. apply K. }
  all: intros k j Hk Hj; apply K.
Qed.
(** In double precision, with pi, cos and sin accurate to 2^-51, every result of this input is
    finite and within 2^-41 of the exact one. *)
Theorem tok_double : forall pi cos_ sin', libm_ok 53 1024 pi cos_ sin' (powerRZ 2 (-51)) ->
  forall (i' : Inp (IEEE 53 1024 pi cos_ sin')) o', rounded (S := IEEE 53 1024 pi cos_ sin') (sf_is 53 1024) (powerRZ 2 (-51)) i' (ex_tok RS) -> valid o' i' ->
  exists r ev r' ev', run_ok (obj_of (ex_tok RS)) r ev /\ run_ok o' r' ev' /\
    (forall f j, In f [A_Boozer_I; A_Boozer_G] -> (0 <= j < 2)%Z -> exists y x c,
       elem r f j = Some (Some y) /\ elem r' f j = Some (Some x) /\ sf_is 53 1024 x c /\ Rabs (c - y) <= powerRZ 2 (-41)) /\
    (forall f k j, In f (outs false) -> (0 <= k < 2)%Z -> (0 <= j < 2)%Z -> exists y x c,
       elem2 r f k j = Some (Some y) /\ elem2 r' f k j = Some (Some x) /\ sf_is 53 1024 x c /\ Rabs (c - y) <= powerRZ 2 (-41)).
Proof.
  intros pi cos_ sin' L i' o' Hr V'.
  assert (HA : accurate (IEEE 53 1024 pi cos_ sin') (sf_is 53 1024) (powerRZ 2 (-51)) (powerRZ 2 1023)).
  { apply (IEEE_accurate 53 1024 ltac:(lia) ltac:(lia)); [|exact L]. unfold sf_eps. apply b_le; lia. }
  assert (HM : IZR (2 ^ 160) <= powerRZ 2 1023 * IZR (2 ^ 96)).
  { apply Rle_trans with (powerRZ 2 64 * IZR (2 ^ 96)).
    - apply Req_le. cbn [powerRZ]. rewrite (pow_IZR 2), <- mult_IZR. apply f_equal. vm_compute. reflexivity.
    - apply Rmult_le_compat_r; [apply IZR_le; apply Z.pow_nonneg; lia|]. apply b_le; lia. }
  destruct (certified 96 (2 ^ 45) (2 ^ 160) tok_pi 12 _ _ _ _ (ex_tok RS) i' (ex_tok CT) (obj_of (ex_tok RS)) o' (obj_of (ex_tok CT))
              ltac:(lia) HA eps_e HM Hr tok_covers (ok_valid RS _ (tok_ok RS)) V' (ok_valid _ _ (tok_ok _)))
    as (r & ev & r' & ev' & rq & evq & R1 & R2 & R3 & T1 & T2).
  exists r, ev, r', ev'. split; [exact R1|]. split; [exact R2|].
  pose proof tok_checked as K. unfold tok_check in K. unfold run_ok in R3. rewrite R3 in K. apply andb_true_iff in K as (K1 & K2).
  assert (B : forall c y E, Rabs (c - y) * IZR (2 ^ 96) <= IZR E -> (E <= 2 ^ 55)%Z -> Rabs (c - y) <= powerRZ 2 (-41)).
  { intros c y E H1 H2. apply IZR_le in H2. assert (P : 0 < IZR (2 ^ 96)) by (apply IZR_lt; reflexivity).
    apply Rmult_le_reg_r with (IZR (2 ^ 96)); [exact P|].
    assert (Q : powerRZ 2 (-41) * IZR (2 ^ 96) = IZR (2 ^ 55)).
    { assert (E1 : IZR (2 ^ 96) = IZR (2 ^ 41) * IZR (2 ^ 55)) by (rewrite <- mult_IZR; reflexivity). rewrite E1, <- Rmult_assoc.
      assert (E2 : powerRZ 2 (-41) * IZR (2 ^ 41) = 1); [|rewrite E2; ring]. change (2 ^ 41)%Z with 2199023255552%Z. cbn [powerRZ].
      replace (2 ^ Pos.to_nat 41) with (IZR 2199023255552); [apply Rinv_l; lra|]. rewrite (pow_IZR 2). apply f_equal. vm_compute. reflexivity. }
    rewrite Q. lra. }
  assert (I2 : forall j, (0 <= j < 2)%Z -> In j [0; 1]%Z).
  { intros j Hj. assert (j = 0 \/ j = 1)%Z as [-> | ->] by lia; cbn; auto. }
  split.
  - intros f j Hf Hj. destruct (T1 f j Hf Hj) as (y & x & z & Ey & Ex & Ez & H). rewrite forallb_forall in K1. specialize (K1 f Hf).
    rewrite forallb_forall in K1. specialize (K1 j (I2 j Hj)). rewrite Ez in K1. cbn [tok_small] in K1. destruct z as [((m & rad) & E)|]; [|discriminate].
    apply Z.leb_le in K1. destruct (H m rad E eq_refl) as (_ & c & Vc & Bc). exists y, x, c. exact (conj Ey (conj Ex (conj Vc (B c y E Bc K1)))).
  - intros f k j Hf Hk Hj. destruct (T2 f k j Hf Hk Hj) as (y & x & z & Ey & Ex & Ez & H). rewrite forallb_forall in K2. specialize (K2 f Hf).
    rewrite forallb_forall in K2. specialize (K2 k (I2 k Hk)). rewrite forallb_forall in K2. specialize (K2 j (I2 j Hj)). rewrite Ez in K2.
    cbn [tok_small] in K2. destruct z as [((m & rad) & E)|]; [|discriminate].
    apply Z.leb_le in K2. destruct (H m rad E eq_refl) as (_ & c & Vc & Bc). exists y, x, c. exact (conj Ey (conj Ex (conj Vc (B c y E Bc K2)))).
Qed.

(** its hypotheses hold: there are such functions, and the input can be given in doubles *)
Lemma tok_rounded pi cos_ sin' : libm_ok 53 1024 pi cos_ sin' (powerRZ 2 (-51)) ->
  rounded (S := IEEE 53 1024 pi cos_ sin') (sf_is 53 1024) (powerRZ 2 (-51)) (ex_tok (IEEE 53 1024 pi cos_ sin')) (ex_tok RS) /\
  valid (obj_of (ex_tok (IEEE 53 1024 pi cos_ sin'))) (ex_tok (IEEE 53 1024 pi cos_ sin')).
Proof.
  intros L. assert (HA : accurate (IEEE 53 1024 pi cos_ sin') (sf_is 53 1024) (powerRZ 2 (-51)) (powerRZ 2 1023)).
  { apply (IEEE_accurate 53 1024 ltac:(lia) ltac:(lia)); [|exact L]. unfold sf_eps. apply b_le; lia. }
  split; [|apply ok_valid, tok_ok].
  assert (K : forall x, (-(2) <= x)%Q -> (x <= 2)%Q ->
    conv1 (S := IEEE 53 1024 pi cos_ sin') (sf_is 53 1024) (powerRZ 2 (-51)) (flit (IEEE 53 1024 pi cos_ sin') x) (flit RS x)).
  { intros x H1 H2. apply Qle_Rle in H1, H2. apply (ac_lit _ _ _ _ HA). rewrite Q2R_opp in H1.
    assert (E2 : Q2R 2 = 2) by (unfold Q2R; cbn; lra). rewrite E2 in H1, H2.
    apply Rle_trans with (b 1); [|apply b_le; lia]. replace (b 1) with 2 by (rewrite b_Z by lia; reflexivity). apply Rabs_le. lra. }
  constructor; try reflexivity; try (intros; discriminate).
  { intros j Hj. apply K; vm_compute; discriminate. }
  all: intros k j Hk Hj; cbn [ex_tok mnmax mnmaxq nsin] in Hk, Hj; unfold ex_tok, tok_coef; cbn [rmnc zmns lmns bmnc bsubumnc bsubvmnc];
    destruct (k =? 0)%Z; [|destruct (j =? 0)%Z]; apply K; vm_compute; discriminate.
Qed.
Lemma tok_libm : exists pi cos_ sin', libm_ok 53 1024 pi cos_ sin' (powerRZ 2 (-51)).
Proof.
  exists (sf_of_R 53 1024 PI), (sf_fun 53 1024 cos), (sf_fun 53 1024 sin).
  replace (powerRZ 2 (-51)) with (2 * sf_eps 53); [apply libm_exists; lia|]. unfold sf_eps.
  replace (-51)%Z with (1 + (1 - 53))%Z by lia. rewrite b_add. replace (b 1) with 2 by (rewrite b_Z by lia; reflexivity). reflexivity.
Qed.

(** IEEE arithmetic with fused multiply-adds anywhere is loose. *)
From Coq Require Import ZArith QArith List Bool Lia Reals Lra Psatz Qreals Floats.SpecFloat.
From Verif Require Import Scalar RoundSpec Sim Ieee IeeeProof IeeeThm Fma.
Import ListNotations.
Local Open Scope Z_scope.
Local Open Scope R_scope.

Section P.
Variables prec emax : Z.
Hypothesis Hprec : (2 <= prec)%Z.
Hypothesis Hemax : (prec < emax)%Z.
Notation is := (sf_is prec emax).
Notation eps := (sf_eps prec).
Notation fma := (sf_fma prec emax).

Lemma is_dec x : (exists c, is x c) \/ (forall c, ~ is x c).
Proof.
  unfold sf_is. destruct (valid_binary prec emax x) eqn:E; [|right; intros c (H & _); discriminate].
  destruct x as [s|s| |s m e]; [left; eauto|right; tauto|right; tauto|left; eauto].
Qed.
Lemma is_fun x a c : is x a -> is x c -> a = c.
Proof. intros (_ & A) (_ & C). destruct x; try contradiction; congruence. Qed.
Lemma is_opp x c : is (SFopp x) c -> is x (- c).
Proof. intros H. apply neg_ok in H. now rewrite opp_opp in H. Qed.

(** A fused multiply-add of finite numbers is accurate to a unit in the last place *)
Theorem fma_ok x y z a c d : is x a -> is y c -> is z d -> Rabs (a * c + d) <= b (emax - 1) ->
  exists r, is (fma x y z) r /\ Rabs (r - (a * c + d)) <= eps * (1 + Rabs (a * c + d)).
Proof.
  intros Hx Hy Hz HM. pose proof Hx as (Vx & Ax). pose proof Hy as (Vy & Ay). pose proof Hz as (Vz & Az).
  assert (E0 : forall t, is t 0 -> a * c = 0 -> exists r, is (SFadd prec emax t z) r /\ Rabs (r - (a * c + d)) <= eps * (1 + Rabs (a * c + d))).
  { intros t Ht E. rewrite E in *. apply (add_ok prec emax Hprec Hemax t z 0 d Ht Hz HM). }
  destruct x as [s|s| |s m e]; try contradiction; destruct y as [s'|s'| |s' m' e']; try contradiction; unfold sf_fma.
  - apply E0; [split; reflexivity|rewrite Ax; ring].
  - apply E0; [split; reflexivity|rewrite Ax; ring].
  - apply E0; [split; reflexivity|rewrite Ay; ring].
  - assert (P : a * c = (if xorb s s' then -1 else 1) * IZR (Zpos (m * m')) * b (e + e')).
    { rewrite Ax, Ay, b_add, Pos2Z.inj_mul, mult_IZR. destruct s, s'; cbn [xorb]; ring. }
    destruct z as [sz|sz| |sz mz ez]; try contradiction.
    + rewrite Az, Rplus_0_r in *. rewrite P in *.
      assert (E : (if xorb s s' then -1 else 1) * IZR (Zpos (m * m')) * b (e + e') = IZR (cond_Zopp (xorb s s') (Zpos (m * m'))) * b (e + e')).
      { destruct (xorb s s'); cbn [cond_Zopp]; rewrite ?opp_IZR; ring. }
      rewrite E in *. now apply normalize_ok.
    + rewrite (cond_val _ _ _ (Z.min (e + e') ez)) in P by lia. rewrite (cond_val _ _ _ (Z.min (e + e') ez)) in Az by lia.
      set (m1 := cond_Zopp (xorb s s') _) in *. set (m2 := cond_Zopp sz _) in *. set (e0 := Z.min (e + e') ez) in *.
      assert (E : a * c + d = IZR (m1 + m2) * b e0) by (rewrite P, Az, plus_IZR; ring).
      rewrite E in *. now apply normalize_ok.
Qed.

Variables (pi : spec_float) (cos_ sin' : spec_float -> spec_float) (e : R).
Hypothesis He : eps <= e.
Hypothesis HL : libm_ok prec emax pi cos_ sin' e.
Notation S := (FMA prec emax pi cos_ sin').
Notation v := (uses prec emax).
Notation M := (powerRZ 2 (emax - 1)).

Lemma use_any (X : cell -> Prop) x : X x -> exists u, v X u.
Proof. intros H. destruct (is_dec (fst x)) as [(c & Hc)|N]; [exists (Some c); eapply uses_num; eauto|exists None; eapply uses_bad; eauto]. Qed.
Lemma some_any (X : cell -> Prop) : some S v X <-> exists x, X x.
Proof.
  split; [|intros (x & Hx); exact (use_any X x Hx)].
  intros (u & H). destruct H; eauto.
Qed.
(** the number itself is one of the uses *)
Lemma use_self (X : cell -> Prop) x : X x -> (exists c, is (fst x) c /\ v X (Some c)) \/ ((forall c, ~ is (fst x) c) /\ v X None).
Proof. intros H. destruct (is_dec (fst x)) as [(c & Hc)|N]; [left; exists c; split; auto; eapply uses_num; eauto|right; split; auto; eapply uses_bad; eauto]. Qed.
Lemma give_some r t : (Rabs t <= M -> exists c, is r c /\ Rabs (c - t) <= eps * (1 + Rabs t)) ->
  forall w, v (fun c => c = plain r) w -> delivers e M (Some t) w.
Proof.
  intros H w Hw HM. destruct (H HM) as (c & Vc & Bc). pose proof (Rabs_pos t). exists c. split; [|pose proof (eps_pos prec); nra].
  destruct Hw as [x d -> D|x p q a d -> E _ _|x -> N|x p q -> E _]; cbn in *; try discriminate.
  - f_equal. eapply is_fun; eauto.
  - exfalso. eapply N; eauto.
Qed.
(** the uses of a set all of whose members are plain numbers *)
Lemma uses_plain (X : cell -> Prop) w : v X w -> (forall c, X c -> snd c = None) -> exists x, X x /\ v (fun c => c = plain (fst x)) w.
Proof.
  intros H Hn. destruct H as [x d Hx D|x p q a d Hx E _ _|x Hx N|x p q Hx E _].
  - exists x. split; auto. eapply uses_num; [reflexivity|exact D].
  - rewrite (Hn x Hx) in E. discriminate.
  - exists x. split; auto. eapply uses_bad; [reflexivity|exact N].
  - rewrite (Hn x Hx) in E. discriminate.
Qed.

(** a sum in either way *)
Lemma sum_uses (X Y : cell -> Prop) (x y c : cell) (g : R -> R -> R) : X x -> Y y -> snd c = None ->
  ((forall a d, is (fst x) a -> is (fst y) d -> Rabs (g a d) <= M -> exists r, is (fst c) r /\ Rabs (r - g a d) <= eps * (1 + Rabs (g a d))) \/
   (exists p q, snd x = Some (p, q) /\ forall a a' d, is p a -> is q a' -> is (fst y) d -> Rabs (g (a * a') d) <= M ->
      exists r, is (fst c) r /\ Rabs (r - g (a * a') d) <= eps * (1 + Rabs (g (a * a') d))) \/
   (exists p q, snd y = Some (p, q) /\ forall a d d', is (fst x) a -> is p d -> is q d' -> Rabs (g a (d * d')) <= M ->
      exists r, is (fst c) r /\ Rabs (r - g a (d * d')) <= eps * (1 + Rabs (g a (d * d'))))) ->
  forall w, v (fun c' => c' = plain (fst c)) w -> exists u u', v X u /\ v Y u' /\ delivers e M (on2 (fun a b => Some (g a b)) u u') w.
Proof.
  intros Hx Hy Hc H w Hw. destruct (use_self X x Hx) as [(a & Ha & Ua)|(Na & Ua)], (use_self Y y Hy) as [(d & Hd & Ud)|(Nd & Ud)].
  2:{ exists (Some a), None. repeat split; auto. }
  2:{ exists None, (Some d). repeat split; auto. }
  2:{ exists None, None. repeat split; auto. }
  destruct H as [H|[(p & q & E & H)|(p & q & E & H)]].
  - exists (Some a), (Some d). split; [auto|]. split; [auto|]. exact (give_some _ _ (H a d Ha Hd) w Hw).
  - destruct (is_dec p) as [(a1 & H1)|N1]; [destruct (is_dec q) as [(a2 & H2)|N2]|].
    + exists (Some (a1 * a2)), (Some d). split; [eapply uses_prod; eauto|]. split; [auto|]. exact (give_some _ _ (H a1 a2 d H1 H2 Hd) w Hw).
    + exists None, (Some d). split; [eapply uses_badp; eauto|]. split; [auto|]. exact I.
    + exists None, (Some d). split; [eapply uses_badp; eauto|]. split; [auto|]. exact I.
  - destruct (is_dec p) as [(a1 & H1)|N1]; [destruct (is_dec q) as [(a2 & H2)|N2]|].
    + exists (Some a), (Some (a1 * a2)). split; [auto|]. split; [eapply uses_prod; eauto|]. exact (give_some _ _ (H a a1 a2 Ha H1 H2) w Hw).
    + exists (Some a), None. split; [auto|]. split; [eapply uses_badp; eauto|]. exact I.
    + exists (Some a), None. split; [auto|]. split; [eapply uses_badp; eauto|]. exact I.
Qed.
Lemma e_pos : 0 <= e. Proof. pose proof (eps_pos prec). lra. Qed.
Lemma lib_uses f (g : R -> R) : (forall x a, is x a -> exists c, is (f x) c /\ Rabs (c - g a) <= e * (1 + Rabs (g a))) ->
  loose1 S v e M (img1 (fun x => plain (f (fst x)))) (fun a => Some (g a)).
Proof.
  intros Hf X SX. apply some_any in SX as (x & Hx). split; [apply some_any; exists (plain (f (fst x))); exists x; auto|].
  intros w Hw. destruct (uses_plain _ _ Hw) as (c & (x0 & Hx0 & ->) & Hc); [intros c (x0 & _ & ->); reflexivity|]. cbn [plain fst] in Hc.
  destruct (use_self X x0 Hx0) as [(a & Ha & Ua)|(Na & Ua)]; [|exists None; split; [auto|exact I]].
  exists (Some a). split; [auto|]. intros _. destruct (Hf _ _ Ha) as (r & Vr & Br). exists r. split; [|exact Br].
  destruct Hc as [y d -> D|y p q a1 d -> E _ _|y -> N|y p q -> E _]; cbn in *; try discriminate.
  - f_equal. eapply is_fun; eauto.
  - exfalso. eapply N; eauto.
Qed.
Lemma const_uses r t : (Rabs t <= M -> exists c, is r c /\ Rabs (c - t) <= e * (1 + Rabs t)) -> loose0 S v e M (only r) t.
Proof.
  intros H. split; [apply some_any; exists (plain r); reflexivity|]. intros w Hw HM. destruct (H HM) as (c & Vc & Bc). exists c. split; [|exact Bc].
  destruct Hw as [y d -> D|y p q a1 d -> E _ _|y -> N|y p q -> E _]; cbn in *; try discriminate.
  - f_equal. eapply is_fun; eauto.
  - exfalso. eapply N; eauto.
Qed.

Theorem FMA_loose : loose S v e M.
Proof.
  pose proof (eps_pos prec) as P0. constructor.
  - exact e_pos.
  - intros X Y SX SY. apply some_any in SX as (x & Hx). apply some_any in SY as (y & Hy).
    split; [apply some_any; eexists; exists x, y; split; [exact Hx|]; split; [exact Hy|apply sums_plain]|].
    intros w Hw. destruct (uses_plain _ _ Hw) as (c & (x0 & y0 & Hx0 & Hy0 & Hs) & Hc); [intros c (x0 & y0 & _ & _ & Hs); now destruct Hs|].
    apply (sum_uses X Y x0 y0 c Rplus); auto; [now destruct Hs|]. destruct Hs as [|p q E|p q E]; cbn [fst].
    + left. intros a d Ha Hd HM. now apply add_ok.
    + right; left. exists p, q. split; [exact E|]. intros a a' d H1 H2 H3 HM. now apply fma_ok.
    + right; right. exists p, q. split; [exact E|]. intros a d d' H1 H2 H3 HM. rewrite (Rplus_comm a) in *. now apply fma_ok.
  - intros X Y SX SY. apply some_any in SX as (x & Hx). apply some_any in SY as (y & Hy).
    split; [apply some_any; eexists; exists x, y; split; [exact Hx|]; split; [exact Hy|apply diffs_plain]|].
    intros w Hw. destruct (uses_plain _ _ Hw) as (c & (x0 & y0 & Hx0 & Hy0 & Hs) & Hc); [intros c (x0 & y0 & _ & _ & Hs); now destruct Hs|].
    apply (sum_uses X Y x0 y0 c Rminus); auto; [now destruct Hs|]. destruct Hs as [|p q E|p q E]; cbn [fst].
    + left. intros a d Ha Hd HM. now apply sub_ok.
    + right; left. exists p, q. split; [exact E|]. intros a a' d H1 H2 H3 HM. unfold Rminus in HM |- *.
      apply fma_ok; auto. now apply neg_ok.
    + right; right. exists p, q. split; [exact E|]. intros a d d' H1 H2 H3 HM.
      assert (E' : a - d * d' = - d * d' + a) by ring. rewrite E' in *. apply fma_ok; auto. now apply neg_ok.
  - intros X Y SX SY. apply some_any in SX as (x & Hx). apply some_any in SY as (y & Hy).
    split; [apply some_any; eexists; exists x, y; split; [exact Hx|]; split; [exact Hy|reflexivity]|].
    intros w Hw. 
    assert (K : exists x0 y0, X x0 /\ Y y0 /\ ((exists a d, is (fst x0) a /\ is (fst y0) d /\ (w = Some (a * d) \/ v (fun c => c = plain (SFmul prec emax (fst x0) (fst y0))) w)) \/
       (forall c, ~ is (fst x0) c) \/ (forall c, ~ is (fst y0) c))).
    { destruct Hw as [c d (x0 & y0 & Hx0 & Hy0 & ->) D|c p q a d (x0 & y0 & Hx0 & Hy0 & ->) E Hp Hq|c (x0 & y0 & Hx0 & Hy0 & ->) N|c p q (x0 & y0 & Hx0 & Hy0 & ->) E N];
        exists x0, y0; (split; [exact Hx0|]); (split; [exact Hy0|]); cbn [times fst snd] in *.
      - destruct (is_dec (fst x0)) as [(a1 & H1)|N1]; [destruct (is_dec (fst y0)) as [(a2 & H2)|N2]; [|auto]|auto].
        left. exists a1, a2. split; [auto|]. split; [auto|]. right. eapply uses_num; [reflexivity|exact D].
      - injection E as <- <-. left. exists a, d. auto.
      - destruct (is_dec (fst x0)) as [(a1 & H1)|N1]; [destruct (is_dec (fst y0)) as [(a2 & H2)|N2]; [|auto]|auto].
        left. exists a1, a2. split; [auto|]. split; [auto|]. right. eapply uses_bad; [reflexivity|exact N].
      - injection E as <- <-. destruct N as [N|N]; auto. }
    destruct K as (x0 & y0 & Hx0 & Hy0 & [(a & d & Ha & Hd & Hc)|[N|N]]).
    + exists (Some a), (Some d). split; [eapply uses_num; eauto|]. split; [eapply uses_num; eauto|].
      destruct Hc as [-> | Hc].
      * intros _. exists (a * d). split; [reflexivity|]. replace (a * d - a * d) with 0 by ring. rewrite Rabs_R0. pose proof (Rabs_pos (a * d)). nra.
      * exact (give_some _ _ (fun HM => mul_ok prec emax Hprec Hemax _ _ _ _ Ha Hd HM) w Hc).
    + destruct (use_any Y y0 Hy0) as (u & Hu). exists None, u. split; [eapply uses_bad; eauto|]. split; [auto|]. exact I.
    + destruct (use_any X x0 Hx0) as (u & Hu). exists u, None. split; [auto|]. split; [eapply uses_bad; eauto|]. destruct u; exact I.
  - intros X Y SX SY. apply some_any in SX as (x & Hx). apply some_any in SY as (y & Hy).
    split; [apply some_any; eexists; exists x, y; split; [exact Hx|]; split; [exact Hy|reflexivity]|].
    intros w Hw. destruct (uses_plain _ _ Hw) as (c & (x0 & y0 & Hx0 & Hy0 & ->) & Hc); [intros c (x0 & y0 & _ & _ & ->); reflexivity|].
    cbn [plain fst] in Hc.
    destruct (use_self X x0 Hx0) as [(a & Ha & Ua)|(Na & Ua)], (use_self Y y0 Hy0) as [(d & Hd & Ud)|(Nd & Ud)].
    2:{ exists (Some a), None. repeat split; auto. }
    2:{ exists None, (Some d). repeat split; auto. }
    2:{ exists None, None. repeat split; auto. }
    exists (Some a), (Some d). split; [auto|]. split; [auto|]. cbn [on2]. unfold quo. destruct (Req_EM_T d 0) as [E|E]; [exact I|].
    exact (give_some _ _ (fun HM => div_ok prec emax Hprec Hemax _ _ _ _ Ha Hd E HM) w Hc).
  - intros X SX. apply some_any in SX as (x & Hx). split; [apply some_any; exists (minus x); exists x; auto|].
    intros w Hw. destruct Hw as [c d (x0 & Hx0 & ->) D|c p q a d (x0 & Hx0 & ->) E Hp Hq|c (x0 & Hx0 & ->) N|c p q (x0 & Hx0 & ->) E N]; cbn [minus fst snd] in *.
    + exists (Some (- d)). split; [eapply uses_num; [exact Hx0|now apply is_opp]|]. cbn [option_map]. f_equal. ring.
    + destruct (snd x0) as [(p0, q0)|] eqn:E0; cbn in E; [|discriminate]. injection E as <- <-. exists (Some (- a * d)).
      split; [eapply uses_prod; eauto; now apply is_opp|]. cbn [option_map]. f_equal. ring.
    + exists None. split; [|reflexivity]. eapply uses_bad; [exact Hx0|]. intros c Hc. apply (N (- c)). now apply neg_ok.
    + destruct (snd x0) as [(p0, q0)|] eqn:E0; cbn in E; [|discriminate]. injection E as <- <-. exists None. split; [|reflexivity].
      eapply uses_badp; [exact Hx0|exact E0|]. destruct N as [N|N]; [left|right; auto]. intros c Hc. apply (N (- c)). now apply neg_ok.
  - exact (lib_uses _ _ (lm_cos _ _ _ _ _ _ HL)).
  - exact (lib_uses _ _ (lm_sin _ _ _ _ _ _ HL)).
  - intros z. apply const_uses. intros HM. apply weaken; [exact He|]. now apply ofZ_ok.
  - intros q. apply const_uses. intros HM. apply weaken; [exact He|]. now apply lit_ok.
  - apply const_uses. intros _. rewrite (Rabs_right PI) by (pose proof PI_RGT_0; lra). apply (lm_pi _ _ _ _ _ _ HL).
Qed.
End P.

(** read_boozmn. *)
From Coq Require Import ZArith QArith List String Bool Lia.
From Verif Require Import Scalar Prog Wp Func Step TrigProof Vmec VmecSpec VmecRun Nc NcModel NcSpec NcTri NcRead.
Import ListNotations.
Local Open Scope Z_scope.

Lemma tri_unbind {S A} (m : io S A) w (Q : A -> world S -> Prop) E D :
  tri (ibind m iret) w Q E D -> tri m w Q E D.
Proof. unfold tri, ibind, iret. destruct (m w); auto. Qed.

Section OpenFile.
Variable S : Scalar.
Notation world := (world S).
(** The constructor of the reader *)
Lemma tri_reader {B} (x : string) (fl : ncfile S) w (k : Z -> io S B) (Q : B -> world -> Prop) (E D : world -> Prop) (q0 : list verdict) :
  wFS w x = Some (Whole fl) -> wf_world S w -> (q0 = [] -> wQ w = []) ->
  (forall w', wFS w' = wFS w -> q0 <> [] -> E w') -> (forall w', wFS w' = wFS w -> q0 <> [] -> D w') ->
  (forall w', rst S fl (wNext w) (wOpen w) (wFS w) q0 w' -> wO w' = wO w -> tri (k (wNext w)) w' Q E D) ->
  tri (ibind (reader S x) k) w Q E D.
Proof.
  intros Hx (_ & W) Hq He Hd Hk. apply tri_bind. unfold reader. apply tri_bind. apply tri_call.
  2:{ intros w' m Hs Hb. assert (q0 <> []) by (intros ->; auto).
      split; [|apply Hd; auto; apply Hs]. apply tri_bind. apply tri_bind.
      unfold tri, say, ithrow. apply He; auto. apply Hs. }
  intros w1 (O1 & F1 & P1 & N1) Q1. rewrite F1, Hx. unfold new_handle. cbv zeta beta iota.
  set (w2 := mkW (wO w1) (wFS w1) ((wNext w1, Reading fl) :: wOpen w1) (wNext w1 + 1) (wQ w1) (wEv w1)).
  assert (R2 : rst S fl (wNext w) (wOpen w) (wFS w) q0 w2).
  { unfold rst. unfold w2; cbn [wOpen wFS wNext wQ]. rewrite P1, N1, F1. splits; auto. }
  apply tri_bind, tri_ret, tri_bind. apply tri_call.
  2:{ intros w' m Hs Hb. assert (q0 <> []) by (eapply (rst_bad S fl); eauto). destruct Hs as (_ & E2 & _).
      split; [|apply Hd; auto; rewrite E2; unfold w2; cbn; auto]. apply tri_bind. apply tri_bind.
      unfold tri, say, ithrow. apply He; auto. cbn. rewrite E2. auto. }
  intros w3 Hs Q3. apply tri_bind, tri_ret, tri_ret. rewrite N1. apply Hk.
  - eapply rst_same; eauto.
  - destruct Hs as (E1 & _). rewrite E1. unfold w2. cbn. auto.
Qed.
End OpenFile.

Section Boozmn.
Variable S : Scalar.
Notation obj := (obj S).
Notation world := (world S).
Notation file := (ncfile S).
Notation F := (F S).

Variables (f : file) (d : bdat S).
Hypothesis Hf : bfile S f d.
Hypothesis Hd : bsane S d.

Lemma need_sym x asy : existsb (String.eqb x) (bneed_vars false) = true -> In x (bneed_vars asy).
Proof.
  intros H. assert (I : In x (bneed_vars false)).
  { apply existsb_exists in H. destruct H as (y & Hy & E). apply String.eqb_eq in E. now subst. }
  unfold bneed_vars in *. rewrite app_nil_r in I. rewrite app_assoc. apply in_or_app. now left.
Qed.
Lemma need_asym x : existsb (String.eqb x) (bneed_vars true) = true -> In x (bneed_vars true).
Proof.
  intros H. apply existsb_exists in H. destruct H as (y & Hy & E). apply String.eqb_eq in E. now subst.
Qed.

Record chi_only (q0 : list verdict) (o o2 : obj) : Prop := mkChi {
  ch_I : forall g, oI o2 g = oI o g; ch_B : forall g, oB o2 g = oB o g; ch_F : forall g, oF o2 g = oF o g;
  ch_N : forall g, oN o2 g = oN o g; ch_A : forall g, g <> A_chi -> oA o2 g = oA o g;
  ch_shp : shp (oA o2 A_chi) (b_radius S d) 1;
  ch_vec : q0 = [] -> present S f "chi_b" -> vec_is (oA o2 A_chi) (b_radius S d) (b_chi S d) }.
Lemma vec_shp {T} (a : array T) n g : 0 <= n -> vec_is a n g -> shp a n 1.
Proof. intros Hn (H1 & H2 & H3 & _). unfold shp. splits; auto; lia. Qed.
Lemma vec_cols {T} (a : array T) n g : vec_is a n g -> acols a = 1.
Proof. intros H. apply H. Qed.
Lemma mat_shp {T} (a : array T) r c g : mat_is a r c g -> shp a r c.
Proof. intros (H1 & H2 & H3 & H4 & H5 & _). unfold shp. splits; auto. Qed.

(** The arrays for stellarator asymmetry are the only ones to change. *)
Record asym_only (o o2 : obj) : Prop := mkAonly {
  ao_I : forall g, oI o2 g = oI o g; ao_B : forall g, oB o2 g = oB o g; ao_F : forall g, oF o2 g = oF o g;
  ao_N : forall g, oN o2 g = oN o g; ao_A : forall g, ~ In g (map snd bvars_asym) -> oA o2 g = oA o g;
  ao_arr : forall x m, In (x, m) bvars_asym ->
    if b_asym S d then mat_is (oA o2 m) (b_mnboz S d) (b_nsurf S d) (fun k b => bsign S m (b_mat S d m k b))
    else asize (oA o2 m) = 0;
  ao_wf : forall x m, In (x, m) bvars_asym -> wf_arr (oA o2 m) }.

Ltac gone := (* a variable is missing: throw *)
  let w' := fresh "w" in let R' := fresh "R" in let O' := fresh "O" in let X := fresh "X" in
  let Cc := fresh "Cc" in
  intros w' R' O' X; split; [apply R'|]; intros ? Cc; destruct X as [X|X]; [|contradiction]; revert X;
  first [ apply (proj1 Cc); first [ apply need_sym; reflexivity
                                 | match goal with Ha : b_asym S d = true |- _ => rewrite Ha; apply need_asym; reflexivity end ]
        | apply (proj2 Cc); cbn; tauto ].
Ltac next w1 R1 O1 w2 R2 O2 := rewrite O1 in O2; clear w1 R1 O1; rename w2 into w1; rename R2 into R1; rename O2 into O1.

Theorem read_boozmn_spec (x : string) (w : world) (q0 : list verdict) vb :
  wFS w x = Some (Whole f) -> wf_world S w -> (q0 = [] -> wQ w = []) -> oI (wO w) I_verbose = Some vb ->
  tri (read_boozmn S x) w
    (fun _ w' => loaded S d (wO w) (wO w') /\
       (q0 = [] -> present S f "chi_b" -> vec_is (oA (wO w') A_chi) (b_radius S d) (b_chi S d)) /\ bcomplete S f d /\
       wFS w' = wFS w /\ wOpen w' = wOpen w /\ wNext w' = wNext w + 1)
    (fun w' => wFS w' = wFS w /\ (q0 = [] -> ~ bcomplete S f d))
    (fun w' => wFS w' = wFS w /\ q0 <> []).
Proof.
  intros Hx W Hq Hv. pose proof W as (Wo & Wp). destruct Hd as [Hmn Hrad Hns Hj]. unfold read_boozmn.
  set (E := fun w' : world => wFS w' = wFS w /\ (q0 = [] -> ~ bcomplete S f d)).
  set (D := fun w' : world => wFS w' = wFS w /\ q0 <> []).
  assert (HD : forall w', wFS w' = wFS w -> q0 <> [] -> D w') by (unfold D; auto).
  assert (HE : forall w', wFS w' = wFS w -> q0 <> [] -> E w').
  { unfold E. intros w' H1 H2. split; auto. }
  unfold chatter. apply tri_bind, tri_lift. eapply wp_geti; [exact Hv|].
  eapply wp_mono with (Q := fun _ o _ => o = wO w); [|destruct (0 <? vb); cbn; auto].
  cbv beta. intros _ o ev ->.
  set (w0 := addEv (setO w (wO w)) ev).
  apply (tri_reader S x f w0 _ _ E D q0); auto.
  replace (wNext w0) with (wNext w) by reflexivity. replace (wOpen w0) with (wOpen w) by reflexivity.
  replace (wFS w0) with (wFS w) by reflexivity.
  set (R := rst S f (wNext w) (wOpen w) (wFS w) q0).
  intros w1 R1 O1. cbn in O1. clear w0.

  eapply (tri_get_local_int S f _ _ _ _ _ _ HD); [exact R1|apply Hf|gone|].
  intros w2 R2 O2 P1. next w1 R1 O1 w2 R2 O2. apply tri_val.
  eapply (tri_setb S f _ _ _ _ _ _); [exact R1|]. intros w2 R2 O2. next w1 R1 O1 w2 R2 O2.
  eapply (tri_get_int S f _ _ _ _ _ _ HD); [exact R1|apply Hf|gone|]. intros w2 R2 O2 P2. next w1 R1 O1 w2 R2 O2.
  eapply (tri_get_int S f _ _ _ _ _ _ HD); [exact R1|apply Hf|gone|]. intros w2 R2 O2 P3. next w1 R1 O1 w2 R2 O2.
  eapply (tri_get_int S f _ _ _ _ _ _ HD); [exact R1|apply Hf|gone|]. intros w2 R2 O2 P4. next w1 R1 O1 w2 R2 O2.
  eapply (tri_get_int S f _ _ _ _ _ _ HD); [exact R1|apply Hf|gone|]. intros w2 R2 O2 P5. next w1 R1 O1 w2 R2 O2.
  eapply (tri_geti S f); [exact R1|rewrite O1; reflexivity|]. intros w2 R2 O2. next w1 R1 O1 w2 R2 O2.
  eapply (tri_resize_ints S f); [exact R1|rewrite O1; apply (wf_N _ Wo)|lia|]. intros w2 xm1 R2 H1 O2. next w1 R1 O1 w2 R2 O2.
  eapply (tri_resize_ints S f); [exact R1|rewrite O1; apply (wf_N _ Wo)|lia|]. intros w2 xn1 R2 H2 O2. next w1 R1 O1 w2 R2 O2.
  eapply (tri_get_ints S f _ _ _ _ _ _ HD); [exact R1|apply Hf|rewrite O1; assumption|lia|gone|]. intros w2 xm2 R2 Vxm2 O2 P6. next w1 R1 O1 w2 R2 O2.
  eapply (tri_get_ints S f _ _ _ _ _ _ HD); [exact R1|apply Hf|rewrite O1; assumption|lia|gone|]. intros w2 xn2 R2 Vxn2 O2 P7. next w1 R1 O1 w2 R2 O2.
  eapply (tri_getdim S f _ _ _ _ _ _ HD); [exact R1|apply Hf|gone|]. intros w2 R2 O2 D1. next w1 R1 O1 w2 R2 O2.
  eapply (tri_int S f); [exact R1|unfold INT_MIN; lia|]. intros w2 R2 O2. next w1 R1 O1 w2 R2 O2.
  eapply (tri_new_vec S f); [exact R1|lia|]. intros w2 l1 R2 Hl1 O2. next w1 R1 O1 w2 R2 O2.
  eapply (tri_new_vec S f); [exact R1|lia|]. intros w2 l2 R2 Hl2 O2. next w1 R1 O1 w2 R2 O2.
  eapply (tri_new_vec S f); [exact R1|lia|]. intros w2 l3 R2 Hl3 O2. next w1 R1 O1 w2 R2 O2.
  eapply (tri_int S f); [exact R1|unfold INT_MIN, INT_MAX in *; lia|]. intros w2 R2 O2. next w1 R1 O1 w2 R2 O2.
  eapply (tri_seti S f); [exact R1|]. intros w2 R2 O2. next w1 R1 O1 w2 R2 O2.
  eapply (tri_resize_arr S f); [exact R1|rewrite O1; apply (wf_A _ Wo)|lia|lia|]. intros w2 aiota R2 Hiota O2. next w1 R1 O1 w2 R2 O2.
  eapply (tri_resize_arr S f); [exact R1|rewrite O1; apply (wf_A _ Wo)|lia|lia|]. intros w2 aG R2 HG O2. next w1 R1 O1 w2 R2 O2.
  eapply (tri_resize_arr S f); [exact R1|rewrite O1; apply (wf_A _ Wo)|lia|lia|]. intros w2 aI R2 HI O2. next w1 R1 O1 w2 R2 O2.
  eapply (tri_int S f); [exact R1|unfold INT_MIN, INT_MAX in *; lia|]. intros w2 R2 O2. next w1 R1 O1 w2 R2 O2.
  replace (b_radius S d - 1 + 1) with (b_radius S d) in * by lia.
  eapply (tri_resize_arr S f); [exact R1|rewrite O1; apply (wf_A _ Wo)|lia|lia|]. intros w2 aphi R2 Hphi O2. next w1 R1 O1 w2 R2 O2.
  eapply (tri_resize_arr S f); [exact R1|rewrite O1; apply (wf_A _ Wo)|lia|lia|]. intros w2 aphip R2 Hphip O2. next w1 R1 O1 w2 R2 O2.
  eapply (tri_resize_arr S f); [exact R1|rewrite O1; apply (wf_A _ Wo)|lia|lia|]. intros w2 achi R2 Hchi O2. next w1 R1 O1 w2 R2 O2.
  eapply (tri_resize_arr S f); [exact R1|rewrite O1; apply (wf_A _ Wo)|lia|lia|]. intros w2 apres R2 Hpres O2. next w1 R1 O1 w2 R2 O2.
  eapply (tri_get_local S f _ _ _ _ _ _ HD); [exact R1|apply Hf|eassumption|lia|gone|]. intros w2 liota R2 Vliota O2 P8. next w1 R1 O1 w2 R2 O2.
  eapply (tri_get_local S f _ _ _ _ _ _ HD); [exact R1|apply Hf|eassumption|lia|gone|]. intros w2 lG R2 VlG O2 P9. next w1 R1 O1 w2 R2 O2.
  eapply (tri_get_local S f _ _ _ _ _ _ HD); [exact R1|apply Hf|eassumption|lia|gone|]. intros w2 lI R2 VlI O2 P10. next w1 R1 O1 w2 R2 O2.
  eapply (tri_get_vec S f _ _ _ _ _ _ HD); [exact R1|apply Hf|rewrite O1; assumption|lia|gone|]. intros w2 phi2 R2 Vphi2 O2 P11. next w1 R1 O1 w2 R2 O2.
  eapply (tri_get_vec S f _ _ _ _ _ _ HD); [exact R1|apply Hf|rewrite O1; assumption|lia|gone|]. intros w2 phip2 R2 Vphip2 O2 P12. next w1 R1 O1 w2 R2 O2.
  (* chi_b may be missing *)
  apply tri_bind. eapply tri_mono with (E := E) (D := D)
    (Q := fun _ w2 => R w2 /\ chi_only q0 (wO w1) (wO w2)); [|auto|auto|].
  2:{ apply tri_try, tri_unbind.
      assert (Hs : shp (oA (wO w1) A_chi) (b_radius S d) 1) by (rewrite O1; assumption).
      eapply (tri_get_vec S f _ _ _ _ _ _ HD); [exact R1|apply Hf|exact Hs|lia| |].
      - intros w2 R2 O2 X. split; [exact R2|]. rewrite O2. constructor; auto. intros E0 P. destruct X as [X|X]; contradiction.
      - intros w2 a R2 V O2 P. apply tri_ret. split; [exact R2|]. rewrite O2. constructor; auto.
        + intros g Hg. cbn. destruct (afield_eq_dec g A_chi); [contradiction|reflexivity].
        + cbn. eapply vec_shp; [|exact V]. lia. }
  cbv beta. intros _ w2 (R2 & C).
  rewrite O1 in C. match type of C with chi_only _ ?t _ => remember t as o1 eqn:O3 in C end. clear w1 R1 O1.
  assert (exists o2, wO w2 = o2) as (o2 & O1) by eauto. rewrite O1 in C. rename w2 into w1. rename R2 into R1.
  eapply (tri_get_vec S f _ _ _ _ _ _ HD); [exact R1|apply Hf| |lia|gone|].
  { rewrite O1, (ch_A _ _ _ C) by discriminate. rewrite O3. assumption. }
  intros w2 pres2 R2 Vpres2 O2 P13. next w1 R1 O1 w2 R2 O2.
  eapply (tri_fill_vec S f) with (g := fun j => b_iota S d (j + 1)); [exact R1| | |].
  { rewrite O1; cbn; rewrite (ch_A _ _ _ C) by discriminate. rewrite O3. assumption. }
  { intros j Hj'. eapply vget_ret; [exact Vliota|lia]. }
  intros w2 iota2 R2 Viota2 O2. next w1 R1 O1 w2 R2 O2.
  eapply (tri_fill_vec S f) with (g := fun j => b_G S d (j + 1)); [exact R1| | |].
  { rewrite O1; cbn; rewrite (ch_A _ _ _ C) by discriminate. rewrite O3. assumption. }
  { intros j Hj'. eapply vget_ret; [exact VlG|lia]. }
  intros w2 G2 R2 VG2 O2. next w1 R1 O1 w2 R2 O2.
  eapply (tri_fill_vec S f) with (g := fun j => b_I S d (j + 1)); [exact R1| | |].
  { rewrite O1; cbn; rewrite (ch_A _ _ _ C) by discriminate. rewrite O3. assumption. }
  { intros j Hj'. eapply vget_ret; [exact VlI|lia]. }
  intros w2 I2 R2 VI2 O2. next w1 R1 O1 w2 R2 O2.
  eapply (tri_getv S f) with (g := b_phi S d) (n := b_radius S d); [exact R1| |lia|].
  { rewrite O1; cbn; rewrite (ch_A _ _ _ C) by discriminate. rewrite O3. assumption. }
  intros w2 R2 O2. next w1 R1 O1 w2 R2 O2.
  eapply (tri_setf S f); [exact R1|]. intros w2 R2 O2. next w1 R1 O1 w2 R2 O2.
  eapply (tri_getdim S f _ _ _ _ _ _ HD); [exact R1|apply Hf|gone|]. intros w2 R2 O2 D2. next w1 R1 O1 w2 R2 O2.
  eapply (tri_int S f); [exact R1|unfold INT_MIN; lia|]. intros w2 R2 O2. next w1 R1 O1 w2 R2 O2.
  eapply (tri_seti S f); [exact R1|]. intros w2 R2 O2. next w1 R1 O1 w2 R2 O2.
  eapply (tri_chatter S f) with (v := vb); [exact R1| | |].
  { rewrite O1; cbn; rewrite (ch_I _ _ _ C). rewrite O3. exact Hv. }
  { eapply wp_geti. { rewrite O1; cbn; rewrite (ch_I _ _ _ C). rewrite O3. reflexivity. }
    eapply wp_geti. { rewrite O1; cbn; rewrite (ch_I _ _ _ C). rewrite O3. reflexivity. }
    cbn. reflexivity. }
  intros w2 R2 O2. next w1 R1 O1 w2 R2 O2.
  eapply (tri_resize_ints S f); [exact R1|rewrite O1; cbn; rewrite (ch_N _ _ _ C), O3; apply (wf_N _ Wo)|lia|].
  intros w2 cs1 R2 Hcs1 O2. next w1 R1 O1 w2 R2 O2.
  eapply (tri_get_ints S f _ _ _ _ _ _ HD); [exact R1|apply Hf|rewrite O1; assumption|lia|gone|].
  intros w2 cs2 R2 Vcs2 O2 P14. next w1 R1 O1 w2 R2 O2.
  apply tri_bind, tri_obj.
  eapply (tri_lift_r S f); [exact R1|].
  eapply wp_mono with (Q := fun a o ev => ev = [] /\ o = wO w1 /\
    vec_is a (b_nsurf S d) (fun j => if j <? b_nsurf S d then b_jlist S d j - 2 else b_jlist S d j)).
  2:{ eapply wp_mono; [|eapply wp_for_pure with (Inv := fun k a => vec_is a (b_nsurf S d)
        (fun j => if j <? k then b_jlist S d j - 2 else b_jlist S d j))].
      - cbv beta. intros a o0 ev0 H. exact H.
      - lia.
      - replace (oN (wO w1) N_compute_surfs) with cs2 by (rewrite O1; reflexivity).
        eapply vec_ext; [|exact Vcs2]. intros k Hk. cbv beta. destruct (Z.ltb_spec k 0); [lia|reflexivity].
      - intros k a Hk Va. eapply wp_vget; [exact Va|lia|]. cbv beta.
        destruct (Z.ltb_spec k k); [lia|]. specialize (Hj k Hk).
        eapply wp_isub; [unfold INT_MIN, INT_MAX in *; lia|].
        eapply wp_vset1; [exact Va|lia|]. intros a' Va'. splits; auto.
        eapply vec_ext; [|exact Va']. intros l Hl. cbv beta.
        destruct (Z.eqb_spec l k), (Z.ltb_spec l k), (Z.ltb_spec l (k + 1)); try lia; subst; reflexivity. }
  cbv beta. intros cs3 o3 ev3 (_ & -> & Vcs3) w2 R2 O2. next w1 R1 O1 w2 R2 O2.
  assert (Vcs : vec_is cs3 (b_nsurf S d) (fun j => b_jlist S d j - 2)).
  { eapply vec_ext; [|exact Vcs3]. intros k Hk. cbv beta. destruct (Z.ltb_spec k (b_nsurf S d)); [reflexivity|lia]. }
  clear Vcs3.
  eapply (tri_setn S f); [exact R1|]. intros w2 R2 O2. next w1 R1 O1 w2 R2 O2.
  assert (Hcs : oN (wO w1) N_compute_surfs = cs3) by (rewrite O1; reflexivity).
  eapply (tri_chatter S f) with (v := vb); [exact R1| | |].
  { rewrite O1; cbn; rewrite (ch_I _ _ _ C). rewrite O3. exact Hv. }
  { unfold elems_n. apply wp_assoc. eapply wp_sizen; [rewrite Hcs; exact Vcs|].
    eapply wp_collect; [lia| |cbn; reflexivity]. intros k k' Q' Hk W'. eapply wp_getn; [rewrite Hcs; exact Vcs|exact Hk|exact W']. }
  intros w2 R2 O2. clear Hcs. next w1 R1 O1 w2 R2 O2.
  eapply (tri_resize_arr S f); [exact R1|rewrite O1; cbn; rewrite (ch_A _ _ _ C) by discriminate; rewrite O3; cbn; apply (wf_A _ Wo)|lia|lia|]. intros w2 abmnc R2 Hbmnc O2. next w1 R1 O1 w2 R2 O2.
  eapply (tri_resize_arr S f); [exact R1|rewrite O1; cbn; rewrite (ch_A _ _ _ C) by discriminate; rewrite O3; cbn; apply (wf_A _ Wo)|lia|lia|]. intros w2 armnc R2 Hrmnc O2. next w1 R1 O1 w2 R2 O2.
  eapply (tri_resize_arr S f); [exact R1|rewrite O1; cbn; rewrite (ch_A _ _ _ C) by discriminate; rewrite O3; cbn; apply (wf_A _ Wo)|lia|lia|]. intros w2 azmns R2 Hzmns O2. next w1 R1 O1 w2 R2 O2.
  eapply (tri_resize_arr S f); [exact R1|rewrite O1; cbn; rewrite (ch_A _ _ _ C) by discriminate; rewrite O3; cbn; apply (wf_A _ Wo)|lia|lia|]. intros w2 anumns R2 Hnumns O2. next w1 R1 O1 w2 R2 O2.
  eapply (tri_resize_arr S f); [exact R1|rewrite O1; cbn; rewrite (ch_A _ _ _ C) by discriminate; rewrite O3; cbn; apply (wf_A _ Wo)|lia|lia|]. intros w2 agmnc R2 Hgmnc O2. next w1 R1 O1 w2 R2 O2.
  eapply (tri_get_mat S f _ _ _ _ _ _ HD); [exact R1|apply (bf_sym _ _ _ Hf); cbn; tauto|rewrite O1; assumption|lia|lia|gone|]. intros w2 bmnc2 R2 Vbmnc2 O2 P15. next w1 R1 O1 w2 R2 O2.
  eapply (tri_get_mat S f _ _ _ _ _ _ HD); [exact R1|apply (bf_sym _ _ _ Hf); cbn; tauto|rewrite O1; assumption|lia|lia|gone|]. intros w2 rmnc2 R2 Vrmnc2 O2 P16. next w1 R1 O1 w2 R2 O2.
  eapply (tri_get_mat S f _ _ _ _ _ _ HD); [exact R1|apply (bf_sym _ _ _ Hf); cbn; tauto|rewrite O1; assumption|lia|lia|gone|]. intros w2 zmns2 R2 Vzmns2 O2 P17. next w1 R1 O1 w2 R2 O2.
  eapply (tri_get_mat S f _ _ _ _ _ _ HD); [exact R1|apply (bf_sym _ _ _ Hf); cbn; tauto|rewrite O1; assumption|lia|lia|gone|]. intros w2 numns2 R2 Vnumns2 O2 P18. next w1 R1 O1 w2 R2 O2.
  eapply (tri_neg S f); [exact R1|rewrite O1; exact Vnumns2|]. intros w2 numns3 R2 Vnumns3 O2. next w1 R1 O1 w2 R2 O2.
  eapply (tri_setarr S f); [exact R1|]. intros w2 R2 O2. next w1 R1 O1 w2 R2 O2.
  eapply (tri_get_mat S f _ _ _ _ _ _ HD); [exact R1|apply (bf_sym _ _ _ Hf); cbn; tauto|rewrite O1; assumption|lia|lia|gone|]. intros w2 gmnc2 R2 Vgmnc2 O2 P19. next w1 R1 O1 w2 R2 O2.
  eapply (tri_getb S f) with (z := b_asym S d); [exact R1|rewrite O1; cbn; rewrite (ch_B _ _ _ C), O3; reflexivity|].
  intros w2 R2 O2. next w1 R1 O1 w2 R2 O2.
  match type of O1 with _ = ?t => remember t as o4 eqn:O4 in O1 end.
  apply tri_bind. eapply tri_mono with (E := E) (D := D)
    (Q := fun _ w2 => R w2 /\ asym_only o4 (wO w2) /\
            (b_asym S d = true -> forall x, In x (map fst bvars_asym) -> present S f x)); [|auto|auto|].
  2:{ rename O1 into O5. destruct (b_asym S d) eqn:Ha.
  - eapply (tri_resize_arr S f); [exact R1|rewrite O5; cbn; rewrite O4; cbn; rewrite (ch_A _ _ _ C) by discriminate; rewrite O3; cbn; apply (wf_A _ Wo)|lia|lia|]. intros w2 abmns R2 Hbmns O2. next w1 R1 O5 w2 R2 O2.
    eapply (tri_resize_arr S f); [exact R1|rewrite O5; cbn; rewrite O4; cbn; rewrite (ch_A _ _ _ C) by discriminate; rewrite O3; cbn; apply (wf_A _ Wo)|lia|lia|]. intros w2 armns R2 Hrmns O2. next w1 R1 O5 w2 R2 O2.
    eapply (tri_resize_arr S f); [exact R1|rewrite O5; cbn; rewrite O4; cbn; rewrite (ch_A _ _ _ C) by discriminate; rewrite O3; cbn; apply (wf_A _ Wo)|lia|lia|]. intros w2 azmnc R2 Hzmnc O2. next w1 R1 O5 w2 R2 O2.
    eapply (tri_resize_arr S f); [exact R1|rewrite O5; cbn; rewrite O4; cbn; rewrite (ch_A _ _ _ C) by discriminate; rewrite O3; cbn; apply (wf_A _ Wo)|lia|lia|]. intros w2 anumnc R2 Hnumnc O2. next w1 R1 O5 w2 R2 O2.
    eapply (tri_resize_arr S f); [exact R1|rewrite O5; cbn; rewrite O4; cbn; rewrite (ch_A _ _ _ C) by discriminate; rewrite O3; cbn; apply (wf_A _ Wo)|lia|lia|]. intros w2 agmns R2 Hgmns O2. next w1 R1 O5 w2 R2 O2.
    eapply (tri_get_mat S f _ _ _ _ _ _ HD); [exact R1|apply (bf_asym _ _ _ Hf Ha); cbn; tauto|rewrite O5; assumption|lia|lia|gone|]. intros w2 bmns2 R2 Vbmns2 O2 Q1. next w1 R1 O5 w2 R2 O2.
    eapply (tri_get_mat S f _ _ _ _ _ _ HD); [exact R1|apply (bf_asym _ _ _ Hf Ha); cbn; tauto|rewrite O5; assumption|lia|lia|gone|]. intros w2 rmns2 R2 Vrmns2 O2 Q2. next w1 R1 O5 w2 R2 O2.
    eapply (tri_get_mat S f _ _ _ _ _ _ HD); [exact R1|apply (bf_asym _ _ _ Hf Ha); cbn; tauto|rewrite O5; assumption|lia|lia|gone|]. intros w2 zmnc2 R2 Vzmnc2 O2 Q3. next w1 R1 O5 w2 R2 O2.
    eapply (tri_get_mat S f _ _ _ _ _ _ HD); [exact R1|apply (bf_asym _ _ _ Hf Ha); cbn; tauto|rewrite O5; assumption|lia|lia|gone|]. intros w2 numnc2 R2 Vnumnc2 O2 Q4. next w1 R1 O5 w2 R2 O2.
    eapply (tri_neg S f); [exact R1|rewrite O5; exact Vnumnc2|]. intros w2 numnc3 R2 Vnumnc3 O2. next w1 R1 O5 w2 R2 O2.
    eapply (tri_setarr S f); [exact R1|]. intros w2 R2 O2. next w1 R1 O5 w2 R2 O2.
    apply tri_unbind.
    eapply (tri_get_mat S f _ _ _ _ _ _ HD); [exact R1|apply (bf_asym _ _ _ Hf Ha); cbn; tauto|rewrite O5; assumption|lia|lia|gone|]. intros w2 gmns2 R2 Vgmns2 O2 Q5. next w1 R1 O5 w2 R2 O2.
    apply tri_ret. split; [exact R1|]. split.
    + rewrite O5. constructor; auto.
      * intros g Hg. destruct g; try reflexivity; destruct Hg; cbn; tauto.
      * rewrite Ha. intros y m Hm. cbn in Hm. repeat (destruct Hm as [Hm|Hm]; [injection Hm as <- <-; assumption|]). contradiction.
      * intros y m Hm. cbn in Hm. repeat (destruct Hm as [Hm|Hm]; [injection Hm as <- <-; eapply mat_is_wf; eassumption|]). contradiction.
    + intros _ y Hy. cbn in Hy. repeat (destruct Hy as [<-|Hy]; [assumption|]). contradiction.
  - eapply (tri_resize_arr S f); [exact R1|rewrite O5; cbn; rewrite O4; cbn; rewrite (ch_A _ _ _ C) by discriminate; rewrite O3; cbn; apply (wf_A _ Wo)|lia|lia|]. intros w2 abmns R2 Hbmns O2. next w1 R1 O5 w2 R2 O2.
    eapply (tri_resize_arr S f); [exact R1|rewrite O5; cbn; rewrite O4; cbn; rewrite (ch_A _ _ _ C) by discriminate; rewrite O3; cbn; apply (wf_A _ Wo)|lia|lia|]. intros w2 armns R2 Hrmns O2. next w1 R1 O5 w2 R2 O2.
    eapply (tri_resize_arr S f); [exact R1|rewrite O5; cbn; rewrite O4; cbn; rewrite (ch_A _ _ _ C) by discriminate; rewrite O3; cbn; apply (wf_A _ Wo)|lia|lia|]. intros w2 azmnc R2 Hzmnc O2. next w1 R1 O5 w2 R2 O2.
    eapply (tri_resize_arr S f); [exact R1|rewrite O5; cbn; rewrite O4; cbn; rewrite (ch_A _ _ _ C) by discriminate; rewrite O3; cbn; apply (wf_A _ Wo)|lia|lia|]. intros w2 anumnc R2 Hnumnc O2. next w1 R1 O5 w2 R2 O2.
    apply tri_unbind.
    eapply (tri_resize_arr S f); [exact R1|rewrite O5; cbn; rewrite O4; cbn; rewrite (ch_A _ _ _ C) by discriminate; rewrite O3; cbn; apply (wf_A _ Wo)|lia|lia|]. intros w2 agmns R2 Hgmns O2. next w1 R1 O5 w2 R2 O2.
    apply tri_ret. split; [exact R1|]. split; [|discriminate].
    rewrite O5. constructor; auto.
      * intros g Hg. destruct g; try reflexivity; destruct Hg; cbn; tauto.
      * rewrite Ha. intros y m Hm. cbn in Hm. repeat (destruct Hm as [Hm|Hm]; [injection Hm as <- <-; erewrite shp_size by eassumption; reflexivity|]). contradiction.
      * intros y m Hm. cbn in Hm. repeat (destruct Hm as [Hm|Hm]; [injection Hm as <- <-; eapply shp_wf; eassumption|]). contradiction.
  }
  cbv beta. intros _ w2 (R2 & Ao & PA).
  assert (exists o5, wO w2 = o5) as (o5 & O5) by eauto. rewrite O5 in Ao. clear w1 R1 O1. rename w2 into w1. rename R2 into R1. rename O5 into O1.
  eapply (tri_get_local_int S f _ _ _ _ _ _ HD); [exact R1|apply Hf|gone|].
  intros w2 R2 O2 P20. next w1 R1 O1 w2 R2 O2. apply tri_val.
  eapply (tri_resize_arr S f); [exact R1|rewrite O1; cbn; rewrite (ao_A _ _ Ao) by (cbn; intuition discriminate); rewrite O4; cbn; rewrite (ch_A _ _ _ C) by discriminate; rewrite O3; cbn; apply (wf_A _ Wo)|lia|lia|].
  intros w2 as1 R2 Has1 O2. next w1 R1 O1 w2 R2 O2.
  assert (Hcs : oN o5 N_compute_surfs = cs3) by (rewrite (ao_N _ _ Ao), O4; reflexivity).
  eapply (tri_lift_r S f); [exact R1|]. apply wp_unbind. eapply wp_fill_gen with
    (g := fun j => (f1 S / (fofZ S (b_ns S d) - f1 S) * (fofZ S (b_jlist S d j - 2) + flit S (1 # 2)))%sc).
  { rewrite O1. exact Has1. }
  { intros j k' Q' Hj' W'. apply wp_assoc. eapply wp_getn; [rewrite O1; cbn; rewrite Hcs; exact Vcs|exact Hj'|]. exact W'. }
  intros sb Vsb. cbn [wp]. intros w2 R2 O2. next w1 R1 O1 w2 R2 O2.
  eapply (tri_chatter S f) with (v := vb); [exact R1| | |].
  { rewrite O1; cbn. rewrite (ao_I _ _ Ao), O4. cbn. rewrite (ch_I _ _ _ C), O3. exact Hv. }
  { apply wp_assoc. eapply wp_getarr; [exact Logic.I|]. unfold elems.
    replace (oA (wO w1) A_s_b) with sb by (rewrite O1; reflexivity).
    rewrite (vec_is_asize _ _ _ Vsb). eapply wp_collect; [lia| |cbn; reflexivity].
    intros k k' Q' Hk W'. eapply wp_vget; [exact Vsb|exact Hk|exact W']. }
  intros w2 R2 O2. next w1 R1 O1 w2 R2 O2.
  eapply (tri_rclose S f _ _ _ _ _ _ HD); [exact R1| |].
  { intros w2 R2 O2 X. apply HE; auto. apply R2. }
  intros w2 Op2 Fs2 Nx2 Qq2 O2. rewrite O1 in O2.
  assert (XA : forall g, ~ In g (map snd bvars_asym) -> g <> A_s_b -> oA (wO w2) g = oA o4 g).
  { intros g Hg Hs. rewrite O2. cbn. destruct (afield_eq_dec g A_s_b); [contradiction|]. now apply (ao_A _ _ Ao). }
  assert (XI : forall g, oI (wO w2) g = oI o4 g) by (intros g; rewrite O2; apply (ao_I _ _ Ao)).
  assert (XB : forall g, oB (wO w2) g = oB o4 g) by (intros g; rewrite O2; apply (ao_B _ _ Ao)).
  assert (XF : forall g, oF (wO w2) g = oF o4 g) by (intros g; rewrite O2; apply (ao_F _ _ Ao)).
  assert (XN : forall g, oN (wO w2) g = oN o4 g) by (intros g; rewrite O2; apply (ao_N _ _ Ao)).
  assert (XM : forall m, In m (map snd bvars_asym) -> oA (wO w2) m = oA o5 m).
  { intros m Hm. rewrite O2. cbn. destruct (afield_eq_dec m A_s_b) as [->|]; [|destruct (afield_eq_dec m A_s_b); [contradiction|reflexivity]].
    exfalso. cbn in Hm. intuition discriminate. }
  assert (YA : forall g, ~ In g (bread_arrays) -> oA (wO w2) g = oA (wO w) g).
  { intros g Hg. destruct g; try (exfalso; apply Hg; cbn; tauto); rewrite XA by (cbn; intuition discriminate);
      rewrite O4; cbn; rewrite (ch_A _ _ _ C) by discriminate; rewrite O3; reflexivity. }
  assert (YN : forall g, ~ In g (bread_intvecs) -> oN (wO w2) g = oN (wO w) g).
  { intros g Hg. destruct g; try (exfalso; apply Hg; cbn; tauto); rewrite XN;
      rewrite O4; cbn; rewrite (ch_N _ _ _ C); rewrite O3; reflexivity. }
  assert (Vchi : oA (wO w2) A_chi = oA o2 A_chi).
  { rewrite XA by (cbn; intuition discriminate). rewrite O4. reflexivity. }
  assert (Zs : forall y m, In (y, m) bvars_sym ->
    mat_is (oA (wO w2) m) (b_mnboz S d) (b_nsurf S d) (fun k b => bsign S m (b_mat S d m k b))).
  { intros y m Hm. cbn in Hm.
    repeat (destruct Hm as [Hm|Hm]; [injection Hm as <- <-; rewrite XA by (cbn; intuition discriminate); rewrite O4; assumption|]).
    contradiction. }
  assert (Zl : forall g, In g [A_iota; A_Boozer_G_all; A_Boozer_I_all; A_phi; A_phip; A_pres] ->
    oA (wO w2) g = match g with A_iota => iota2 | A_Boozer_G_all => G2 | A_Boozer_I_all => I2 | A_phi => phi2 | A_phip => phip2
                     | _ => pres2 end).
  { intros g Hg. cbn in Hg. repeat (destruct Hg as [<-|Hg]; [rewrite XA by (cbn; intuition discriminate); rewrite O4; cbn;
      rewrite ?(ch_A _ _ _ C) by discriminate; rewrite ?O3; reflexivity|]). contradiction. }
  assert (Ls : vec_is (oA (wO w2) A_s_b) (b_nsurf S d)
    (fun j => f1 S / (fofZ S (b_ns S d) - f1 S) * (fofZ S (b_jlist S d j - 2) + flit S (1 # 2)))%sc).
  { rewrite O2. exact Vsb. }
  assert (Zn : oN (wO w2) N_xm_b = xm2 /\ oN (wO w2) N_xn_b = xn2 /\ oN (wO w2) N_compute_surfs = cs3).
  { rewrite !XN, O4. cbn. rewrite !(ch_N _ _ _ C), O3. cbn. auto. }
  destruct Zn as (Zn1 & Zn2 & Zn3).
  split; [constructor|split; [|split; [split|auto]]].
  - rewrite XB, O4. cbn. rewrite (ch_B _ _ _ C), O3. reflexivity.
  - rewrite XI, O4. cbn. rewrite (ch_I _ _ _ C), O3. reflexivity.
  - rewrite XI, O4. cbn. rewrite (ch_I _ _ _ C), O3. reflexivity.
  - rewrite XI, O4. cbn. rewrite (ch_I _ _ _ C), O3. reflexivity.
  - rewrite XI, O4. cbn. rewrite (ch_I _ _ _ C), O3. reflexivity.
  - rewrite XI, O4. cbn. rewrite (ch_I _ _ _ C), O3. reflexivity.
  - rewrite XI, O4. reflexivity.
  - rewrite Zn1. exact Vxm2.
  - rewrite Zn2. exact Vxn2.
  - rewrite Zn3. exact Vcs.
  - rewrite Zl by (cbn; tauto). assumption.
  - rewrite Zl by (cbn; tauto). assumption.
  - rewrite Zl by (cbn; tauto). assumption.
  - rewrite Zl by (cbn; tauto). assumption.
  - rewrite Zl by (cbn; tauto). assumption.
  - rewrite Vchi. erewrite shp_size by apply (ch_shp _ _ _ C). lia.
  - rewrite Zl by (cbn; tauto). assumption.
  - rewrite XF, O4. reflexivity.
  - exact Ls.
  - exact Zs.
  - intros y m Hm. pose proof (ao_arr _ _ Ao y m Hm) as X. rewrite XM; auto. apply (in_map snd) in Hm. exact Hm.
  - intros g Hg. rewrite XB, O4. cbn. rewrite (ch_B _ _ _ C), O3. cbn. destruct g; try reflexivity; contradiction.
  - intros g Hg. rewrite XI, O4. cbn. destruct g; try (exfalso; apply Hg; cbn; tauto); cbn; rewrite (ch_I _ _ _ C), O3; reflexivity.
  - intros g Hg. rewrite XF, O4. cbn. destruct g; try contradiction; cbn; rewrite (ch_F _ _ _ C), O3; reflexivity.
  - exact YN.
  - exact YA.
  - constructor.
    + intros g. destruct (in_dec nfield_eq_dec g bread_intvecs) as [Hg|Hg]; [|rewrite YN by auto; apply (wf_N _ Wo)].
      cbn in Hg. repeat (destruct Hg as [<-|Hg]; [rewrite ?Zn1, ?Zn2, ?Zn3; split; [eapply vec_is_wf; eassumption|eapply vec_cols; eassumption]|]). contradiction.
    + intros g. destruct (in_dec afield_eq_dec g bread_arrays) as [Hg|Hg]; [|rewrite YA by auto; apply (wf_A _ Wo)].
      unfold bread_arrays in Hg. apply in_app_or in Hg. destruct Hg as [Hg|Hg]; [|apply in_app_or in Hg; destruct Hg as [Hg|Hg]].
      * assert (Hg' : g = A_chi \/ g = A_s_b \/ In g [A_iota; A_Boozer_G_all; A_Boozer_I_all; A_phi; A_phip; A_pres]) by (cbn in *; repeat (destruct Hg as [<-|Hg]; [tauto|]); contradiction).
        destruct Hg' as [->|[->|Hg']].
        -- rewrite Vchi. eapply shp_wf. apply (ch_shp _ _ _ C).
        -- eapply vec_is_wf. exact Ls.
        -- rewrite Zl by auto. cbn in Hg'. repeat (destruct Hg' as [<-|Hg']; [eapply vec_is_wf; eassumption|]). contradiction.
      * apply in_map_iff in Hg. destruct Hg as ((y & m) & Em & Hm). cbn in Em. subst g. eapply mat_is_wf. eapply Zs, Hm.
      * rewrite XM by auto. apply in_map_iff in Hg. destruct Hg as ((y & m) & Em & Hm). cbn in Em. subst g. eapply (ao_wf _ _ Ao), Hm.
  - intros E0 Pc. rewrite Vchi. exact (ch_vec _ _ _ C E0 Pc).
  - unfold bneed_vars. intros y Hy. rewrite app_assoc in Hy. apply in_app_or in Hy. destruct Hy as [Hy|Hy].
    + cbn in Hy. repeat (destruct Hy as [<-|Hy]; [assumption|]). contradiction.
    + destruct (b_asym S d) eqn:Ha; [apply PA; auto|contradiction].
  - intros y Hy. cbn in Hy. repeat (destruct Hy as [<-|Hy]; [assumption|]). contradiction.
Qed.
End Boozmn.

(** write_boozmn. *)
From Coq Require Import ZArith QArith List String Bool Lia.
From Verif Require Import Scalar Prog Wp Func Step TrigProof FuncExt Spec Vmec VmecSpec VmecRun Nc NcModel NcSpec NcTri NcRead NcBoozmn NcWrite.
Import ListNotations.
Local Open Scope Z_scope.

Section WriteB.
Variable S : Scalar.
Notation obj := (obj S).
Notation world := (world S).
Notation io := (io S).
Notation file := (ncfile S).
Notation F := (F S).
Notation arr := (arr S).
Variable version : string.

Definition lv : string := ("C++/Python booz_xform " ++ version)%string.

Lemma vec_re {T} (a : array T) n g : vec_is a n g -> vec_is (mkArr n 1 (adata a)) n g.
Proof. intros (H1 & H2 & H3 & H4). repeat split; auto. Qed.
Lemma mat_re {T} (a : array T) r c g : mat_is a r c g -> mat_is (mkArr r c (adata a)) r c g.
Proof. intros (H1 & H2 & H3 & H4 & H5 & H6). repeat split; auto. Qed.
Lemma one_is {T} (z : T) : vec_is (mkArr 1 1 [Some z]) 1 (fun _ => z).
Proof. repeat split. cbn. intros i Hi. assert (i = 0) as -> by lia. reflexivity. Qed.
Lemma vec_all {T} (a : array T) n z : vec_is a n (fun _ => z) -> Forall (fun c => c = Some z) (adata a).
Proof.
  intros (_ & _ & H1 & H2). apply Forall_forall. intros c Hc. apply (In_nth _ _ None) in Hc. destruct Hc as (i & Hi & <-).
  specialize (H2 (Z.of_nat i)). unfold znth in H2. destruct (Z.ltb_spec (Z.of_nat i) 0); [lia|]. rewrite Nat2Z.id in H2. rewrite (nth_error_nth' _ None Hi) in H2.
  assert (Some (nth i (adata a) None) = Some (Some z)) as X by (apply H2; lia). now injection X.
Qed.
Lemma mat_ext {T} (a : array T) r c g g' : (forall i j, 0 <= i < r -> 0 <= j < c -> g i j = g' i j) -> mat_is a r c g -> mat_is a r c g'.
Proof. intros H (H1 & H2 & H3 & H4 & H5 & H6). repeat split; auto. intros i j Hi Hj. rewrite H6, H; auto. Qed.

(** The values, in order *)
Definition symvals (o1 : obj) (d : bdat S) (asp : option F) (jl : narr) (io bu bv be ph ch pr pi pm : arr) : list (ncval S) :=
  [VChar lv; VInt [Some (b_lasym S d)]; VInt [Some (b_ns S d)]; VInt [Some (b_nfp S d)]; VInt [Some (b_mboz S d)];
   VInt [Some (b_nboz S d)]; VInt [Some (b_mnboz S d)]; VDbl [asp]; VDbl [Some (fofZ S 0)]; VDbl [Some (fofZ S 0)];
   VDbl [Some (fofZ S 0)]; VInt (adata jl); VInt (adata (oN o1 N_xm_b)); VInt (adata (oN o1 N_xn_b));
   VDbl (adata io); VDbl (adata bu); VDbl (adata bv); VDbl (adata be); VDbl (adata ph); VDbl (adata ch);
   VDbl (adata pr); VDbl (adata pi);
   VDbl (adata (oA o1 A_bmnc_b)); VDbl (adata (oA o1 A_rmnc_b)); VDbl (adata (oA o1 A_zmns_b)); VDbl (adata pm);
   VDbl (adata (oA o1 A_gmnc_b))].
Definition asymvals (o1 : obj) (pm : arr) : list (ncval S) :=
  [VDbl (adata (oA o1 A_bmns_b)); VDbl (adata (oA o1 A_rmns_b)); VDbl (adata (oA o1 A_zmnc_b)); VDbl (adata pm);
   VDbl (adata (oA o1 A_gmns_b))].

Lemma written_of f' (o o1 : obj) d g fl (jl : narr) (io bu bv be ph ch pr pi pm pm' : arr) :
  nf_dims f' = bdims S version d ->
  map (sig_of S) (nf_vars f') = blayout version (b_asym S d) fl ->
  map vr_val (nf_vars f') = symvals o1 d (oF o F_aspect) jl io bu bv be ph ch pr pi pm ++ (if b_asym S d then asymvals o1 pm' else []) ->
  vec_is jl (b_nsurf S d) (b_jlist S d) ->
  vec_is (oN o1 N_xm_b) (b_mnboz S d) (b_xm S d) -> vec_is (oN o1 N_xn_b) (b_mnboz S d) (b_xn S d) ->
  vec_is io (b_radius S d) (b_iota S d) -> vec_is bu (b_radius S d) (b_I S d) -> vec_is bv (b_radius S d) (b_G S d) ->
  vec_is ph (b_radius S d) (b_phip S d) -> vec_is ch (b_radius S d) (b_chi S d) -> vec_is pr (b_radius S d) (b_pres S d) ->
  vec_is pi (b_radius S d) (b_phi S d) ->
  (Z.of_nat (List.length (adata be)) = b_radius S d /\ Forall (fun c => c = if fl then None else Some (fofZ S 0)) (adata be)) ->
  (forall x m, In (x, m) bvars_sym -> mat_is (oA o1 m) (b_mnboz S d) (b_nsurf S d) (g m)) ->
  (b_asym S d = true -> forall x m, In (x, m) bvars_asym -> mat_is (oA o1 m) (b_mnboz S d) (b_nsurf S d) (g m)) ->
  mat_is pm (b_mnboz S d) (b_nsurf S d) (fun i j => fneg S (g A_numns_b i j)) ->
  (b_asym S d = true -> mat_is pm' (b_mnboz S d) (b_nsurf S d) (fun i j => fneg S (g A_numnc_b i j))) ->
  (forall m k b, b_mat S d m k b = bsign S m (g m k b)) ->
  written S version o d fl f'.
Proof.
  intros Ed Es Ev Hj Hxm Hxn Hio Hbu Hbv Hph Hch Hpr Hpi Hbe Hs Ha Hpm Hpm' Hg.
  assert (Hmat : forall m a r c, mat_is a r c (fun i j => bsign S m (g m i j)) -> mat_is (mkArr r c (adata a)) r c (b_mat S d m)).
  { intros m a r c H. apply mat_re. eapply mat_ext; [|exact H]. cbv beta. intros. now rewrite Hg. }
  assert (L : forall y, option_map vr_val (find_var f' y) =
      lookup (combine (map sname (blayout version (b_asym S d) fl))
        (symvals o1 d (oF o F_aspect) jl io bu bv be ph ch pr pi pm ++ (if b_asym S d then asymvals o1 pm' else []))) y).
  { intros y. unfold find_var. rewrite find_val. rewrite Es, Ev. reflexivity. }
  assert (L1 : forall y v val, find_var f' y = Some v ->
     lookup (combine (map sname (blayout version (b_asym S d) fl))
        (symvals o1 d (oF o F_aspect) jl io bu bv be ph ch pr pi pm ++ (if b_asym S d then asymvals o1 pm' else []))) y = Some val -> vr_val v = val).
  { intros y v val H1 H2. rewrite <- L, H1 in H2. now injection H2. }
  assert (L2 : forall y val,
     lookup (combine (map sname (blayout version (b_asym S d) fl))
        (symvals o1 d (oF o F_aspect) jl io bu bv be ph ch pr pi pm ++ (if b_asym S d then asymvals o1 pm' else []))) y = Some val ->
     exists v, find_var f' y = Some v /\ vr_val v = val).
  { intros y val H2. rewrite <- L in H2. destruct (find_var f' y) as [v|]; [|discriminate]. injection H2 as <-. eauto. }
  constructor.
  - exact Ed.
  - exact Es.
  - constructor.
    1-6: intros v Hv; rewrite (L1 _ _ _ Hv eq_refl); eexists; split; [reflexivity|apply one_is].
    1-3: intros v Hv; rewrite (L1 _ _ _ Hv eq_refl); eexists; split; [reflexivity|now apply vec_re].
    1-2: intros v Hv; rewrite Ed in Hv; cbn in Hv; now injection Hv.
    1-7: intros v Hv; rewrite (L1 _ _ _ Hv eq_refl); eexists; split; [reflexivity|now apply vec_re].
    + intros y m Hin v Hv.
      assert (Hm := Hs y m Hin). cbn in Hin.
      repeat destruct Hin as [E|Hin]; try contradiction; injection E as <- <-;
        rewrite (L1 _ _ _ Hv eq_refl); eexists; (split; [reflexivity|]); apply Hmat; assumption.
    + intros As y m Hin v Hv. rewrite As in L1. assert (Hm := Ha As y m Hin). specialize (Hpm' As). cbn in Hin.
      repeat destruct Hin as [E|Hin]; try contradiction; injection E as <- <-;
        rewrite (L1 _ _ _ Hv eq_refl); eexists; (split; [reflexivity|]); apply Hmat; assumption.
  - assert (P : forall y val, lookup (combine (map sname (blayout version (b_asym S d) fl))
        (symvals o1 d (oF o F_aspect) jl io bu bv be ph ch pr pi pm ++ (if b_asym S d then asymvals o1 pm' else []))) y = Some val -> present S f' y).
    { intros y val H. destruct (L2 y val H) as (v & Hv & _). unfold present. now rewrite Hv. }
    split; [split|].
    + destruct (b_asym S d) eqn:As; intros y Hin; cbn in Hin;
        repeat destruct Hin as [<-|Hin]; try contradiction; eapply P; reflexivity.
    + intros y Hin. unfold has_dim. rewrite Ed. cbn in Hin. repeat destruct Hin as [<-|Hin]; try contradiction; cbn; discriminate.
    + eapply P; reflexivity.
  - apply L2. reflexivity.
  - apply L2. reflexivity.
  - intros y Hin. cbn in Hin. repeat destruct Hin as [<-|Hin]; try contradiction; apply L2; reflexivity.
  - destruct (L2 "beta_b"%string _ eq_refl) as (v & Hv & Ev'). exists v, (adata be). splits; auto; apply Hbe.
Qed.

Fixpoint nodupb (l : list string) : bool :=
  match l with [] => true | x :: l => negb (existsb (String.eqb x) l) && nodupb l end.
Lemma nodupb_ok l : nodupb l = true -> NoDup l.
Proof.
  induction l as [|x l IH]; cbn; [constructor|]. intros H. apply andb_true_iff in H. destruct H as (H1 & H2).
  constructor; auto. intros Hin. apply negb_true_iff in H1. assert (X : existsb (String.eqb x) l = true); [|congruence].
  apply existsb_exists. exists x. split; auto. apply String.eqb_refl.
Qed.

Definition after (fl : bool) (o : obj) : obj :=
  if fl then updA o A_phip (aput (oA o A_phip) 0 (fofZ S 0)) else o.
Lemma after_same fl o : same_but_phip0 S fl o (after fl o).
Proof.
  destruct fl; constructor; intros; cbn; auto.
  destruct (afield_eq_dec g A_phip); [contradiction|reflexivity].
Qed.

Section Spec.
Variables (x : string) (w : world) (o : obj) (d : bdat S) (g : afield -> Z -> Z -> F) (fl : bool) (ph : Z -> F).
Variables (q0 : list verdict) (vb : Z).
Hypothesis Ho : wO w = o.
Hypothesis Hst : stored S o d g fl ph.
Hypothesis Hfit : wfits S version d.
Hypothesis Hw : wf_world S w.
Hypothesis Hq : q0 = [] -> wQ w = [].
Hypothesis Hvb : oI o I_verbose = Some vb.

Definition wbad (w' : world) : Prop :=
  q0 <> [] /\ (forall y, y <> x -> wFS w' y = wFS w y) /\ (wFS w' x = wFS w x \/ wFS w' x = Some Torn) /\
  (wO w' = o \/ wO w' = after fl o).
Definition wgood (w' : world) : Prop :=
  wOpen w' = wOpen w /\ wNext w' = wNext w + 1 /\ (q0 = [] -> wQ w' = []) /\ (forall y, y <> x -> wFS w' y = wFS w y) /\
  (exists f', wFS w' x = Some (Whole f') /\ written S version o d fl f') /\ wO w' = after fl o.

Let okk (o' : obj) : Prop := o' = o \/ o' = after fl o.
Let h := wNext w.
Notation wst := (wst S x h (wOpen w) (wFS w) q0).
Lemma HE : forall w', wFS w' = torn S x (wFS w) -> q0 <> [] -> okk (wO w') -> wbad w'.
Proof.
  intros w' H1 H2 H3. unfold wbad. rewrite H1. unfold torn. splits; auto.
  - intros y Hy. destruct (String.eqb_spec y x); [contradiction|reflexivity].
  - right. now rewrite String.eqb_refl.
Qed.
Lemma DS2 : dims_ok (bdims S version d) ["pack_rad"; "mn_modes"]%string.
Proof.
  split; [reflexivity|]. constructor; [|constructor]. cbn. intros X. injection X as X. pose proof (wz_mnboz _ _ _ Hfit). lia.
Qed.
Lemma NZ1 : nsize (bdims S version d) ["radius"%string] = b_radius S d.
Proof. cbn. apply Z.mul_1_r. Qed.
Lemma NZ2 : nsize (bdims S version d) ["mn_modes"%string] = b_mnboz S d.
Proof. cbn. apply Z.mul_1_r. Qed.
Lemma NZ3 : nsize (bdims S version d) ["comput_surfs"%string] = b_nsurf S d.
Proof. cbn. apply Z.mul_1_r. Qed.
Lemma NZ4 : nsize (bdims S version d) ["pack_rad"; "mn_modes"]%string = b_mnboz S d * b_nsurf S d.
Proof. cbn. rewrite Z.mul_1_r. apply Z.mul_comm. Qed.
Lemma NZ5 : nsize (bdims S version d) [dim_str (22 + String.length version)] = Z.of_nat (String.length lv).
Proof.
  unfold nsize, bdims. cbn [fold_right].
  match goal with |- match lookup ?l ?y with _ => _ end = _ => assert (X : lookup l y = Some (Z.of_nat (22 + String.length version))) end.
  { unfold lookup. cbn [find fst]. unfold dim_str at 1 2 3 4 5. cbn [append String.eqb Ascii.eqb Bool.eqb andb].
    rewrite String.eqb_refl. reflexivity. }
  rewrite X. rewrite Z.mul_1_r. reflexivity.
Qed.

Lemma write_open (k : writer -> io unit) Q :
  (forall w1, wst [] [] w1 -> wO w1 = o -> tri (k (mkWr h [])) w1 Q wbad wbad) ->
  tri (ibind (chatter S (out ("Writing output to " ++ x) [] [])) (fun _ => ibind (new_writer S x) k)) w Q wbad wbad.
Proof.
  intros Hk. apply tri_bind. unfold chatter. apply tri_lift. eapply wp_geti; [rewrite Ho; exact Hvb|].
  assert (X : forall ev, tri (ibind (new_writer S x) k) (addEv (setO w (wO w)) ev) Q wbad wbad).
  { intros ev. apply tri_bind. unfold new_writer. apply tri_bind. unfold nc_create. apply tri_call.
    - intros w1 Hs Hq1. cbn [new_handle]. cbv beta iota. apply tri_bind, tri_ret. apply tri_ret.
      destruct Hs as (O1 & F1 & P1 & N1). cbn in O1, F1, P1, N1, Hq1. match goal with |- tri (k (mkWr ?a _)) ?b _ _ _ => change a with (wNext w1); remember b as w2 eqn:E2 end.
      rewrite N1. fold h. apply Hk; subst w2.
      + exists (mkFile [] []). split; [|split; reflexivity]. unfold wopen. cbn. rewrite P1, F1. splits; auto. apply Hw.
      + cbn. congruence.
    - intros w1 m (O1 & F1 & P1 & N1) Hq1. cbn in O1, F1, P1, N1, Hq1.
      assert (Y : wbad w1).
      { unfold wbad. rewrite F1, O1. splits; auto. }
      split; [|exact Y]. unfold tri, ibind, wchk, ithrow. exact Y. }
  destruct (0 <? vb); cbn [out bind wp]; cbv beta; apply X.
Qed.

Ltac nx w1 H1 O1 := let w2 := fresh "w'" in let H2 := fresh "H'" in let O2 := fresh "O'" in
  intros w2 H2 O2; rewrite O1 in O2; clear w1 H1 O1; rename w2 into w1; rename H2 into H1; rename O2 into O1.
Ltac okg O1 := rewrite O1; unfold okk; first [left; reflexivity|right; reflexivity].
Ltac dimg := first [exact DS2|split; [reflexivity|constructor]].
Ltac pt w1 H1 O1 := eapply (tri_put S x h (wOpen w) (wFS w) q0 wbad wbad okk HE HE);
  [exact H1|okg O1|reflexivity|dimg| |nx w1 H1 O1].


Ltac pm w1 H1 O1 Bm := eapply (tri_put_mat S x h (wOpen w) (wFS w) q0 wbad wbad okk HE HE) with (r := b_mnboz S d) (c := b_nsurf S d);
  [exact H1|okg O1|reflexivity|exact DS2|rewrite O1; eapply Bm; cbn; auto 10|lia|lia|nx w1 H1 O1].

Ltac ng := first [exact NZ1|exact NZ2|exact NZ3|exact NZ4|reflexivity].
Ltac dg Bm Ba := let w' := fresh in let O' := fresh in intros w' O'; cbv beta;
  first [eapply d_LS; [reflexivity|exact NZ5] |eapply d_LI; [reflexivity|ng]|eapply d_LF; [reflexivity|ng]
        |eapply d_I; [exact O'|ng]|eapply d_F; [exact O'|ng]|eapply d_N; [exact O'|eassumption|ng]
        |eapply d_A; [exact O'|eassumption|ng]|eapply d_LN; [reflexivity|eassumption|ng]|eapply d_LA; [reflexivity|eassumption|ng]
        |eapply d_LU; [reflexivity|eassumption|ng]|eapply d_LM; [reflexivity|eassumption|ng]
        |eapply d_M; [exact O'|eapply Bm; cbn; solve [auto 10]|ng]|eapply d_M; [exact O'|eapply Ba; cbn; solve [auto 10]|ng]].
Ltac fin Bm Ba O1 Alasym Ea Ans Anfp Amboz Anboz Amnboz Bi Bf :=
  unfold symvals; try unfold asymvals; cbn [app map combine fst snd sname]; rewrite O1;
  rewrite Alasym, Ea, Ans, <- Anfp, <- Amboz, <- Anboz, <- Amnboz, <- !Bi, <- Bf;
  repeat (apply Forall2_cons; [dg Bm Ba|]); try apply Forall2_nil.

Theorem write_boozmn_spec : tri (write_boozmn S version x) w (fun _ w' => wgood w') wbad wbad.
Proof.
  destruct Hst as [Aasym Alasym Anfp Amboz Anboz Amnboz Ansin Ans Ansb Axm Axn (cs & Acs & Ajl) (Z1 & Z2 & Z3) Aiota AG AI Asym AasymM Afile Aflux Anoflux].
  destruct Hfit as [Wm Wr Ws Wj Wv].
  unfold write_boozmn. apply write_open. intros w1 H1 O1.
  eapply (tri_lift_w S x h (wOpen w) (wFS w) q0 wbad wbad); [exact H1|].
  apply wp_unbind. eapply wp_geti; [rewrite O1; exact Ansin|]. cbn [wp]. cbv beta. nx w1 H1 O1.
  eapply (tri_lift_w S x h (wOpen w) (wFS w) q0 wbad wbad); [exact H1|].
  apply wp_unbind. apply wp_iadd; [unfold INT_MIN, INT_MAX; lia|]. cbn [wp]. cbv beta. nx w1 H1 O1.
  rewrite Z.sub_add.
  eapply (tri_wdim S x h (wOpen w) (wFS w) q0 wbad wbad okk HE HE); [exact H1|okg O1|lia|reflexivity|nx w1 H1 O1].
  eapply (tri_lift_w S x h (wOpen w) (wFS w) q0 wbad wbad); [exact H1|].
  apply wp_unbind. eapply wp_geti; [rewrite O1; exact Amnboz|]. cbn [wp]. cbv beta. nx w1 H1 O1.
  do 2 (eapply (tri_wdim S x h (wOpen w) (wFS w) q0 wbad wbad okk HE HE); [exact H1|okg O1|lia|reflexivity|nx w1 H1 O1]).
  eapply (tri_lift_w S x h (wOpen w) (wFS w) q0 wbad wbad); [exact H1|].
  apply wp_unbind. eapply wp_sizen; [rewrite O1; exact Acs|]. cbn [wp]. cbv beta. nx w1 H1 O1.
  do 2 (eapply (tri_wdim S x h (wOpen w) (wFS w) q0 wbad wbad okk HE HE); [exact H1|okg O1|lia|reflexivity|nx w1 H1 O1]).
  eapply (tri_put_string S x h (wOpen w) (wFS w) q0 wbad wbad okk HE HE); [exact H1|okg O1|reflexivity|reflexivity| |].
  { cbn [append String.length]. lia. }
  nx w1 H1 O1. change (wst (bdims S version d) [("version"%string, [dim_str (22 + String.length version)], None)] w1) in H1.
  eapply (tri_lift_w S x h (wOpen w) (wFS w) q0 wbad wbad); [exact H1|].
  apply wp_unbind. eapply wp_getb; [rewrite O1; exact Aasym|]. cbn [wp]. cbv beta. nx w1 H1 O1.
  do 10 (pt w1 H1 O1; [exact Logic.I|]).
  eapply (tri_lift_w S x h (wOpen w) (wFS w) q0 wbad wbad); [exact H1|].
  apply wp_unbind. eapply wp_geti; [rewrite O1; exact Ansb|]. cbn [wp]. cbv beta. nx w1 H1 O1.
  eapply (tri_jlist S x h (wOpen w) (wFS w) q0 wbad wbad (b_nsurf S d) cs (b_jlist S d)); [exact H1|rewrite O1; exact Acs|lia| |].
  { intros j Hj. split; [auto|]. specialize (Wj j Hj). unfold INT_MIN, INT_MAX in *. lia. }
  intros jl w' H' O' Vjl. revert w' H' O'. nx w1 H1 O1. rewrite (vec_is_asize _ _ _ Vjl).
  pt w1 H1 O1; [apply good_LN; lia|].
  eapply (tri_put_ints S x h (wOpen w) (wFS w) q0 wbad wbad okk HE HE) with (n := b_mnboz S d);
    [exact H1|okg O1|reflexivity|dimg|rewrite O1; now apply vec_is_asize in Axm|lia|nx w1 H1 O1].
  eapply (tri_put_ints S x h (wOpen w) (wFS w) q0 wbad wbad okk HE HE) with (n := b_mnboz S d);
    [exact H1|okg O1|reflexivity|dimg|rewrite O1; now apply vec_is_asize in Axn|lia|nx w1 H1 O1].
  eapply (tri_prepend S x h (wOpen w) (wFS w) q0 wbad wbad); [exact H1|rewrite O1; exact Aiota|unfold INT_MAX; lia|].
  intros io w' H' O' Vio. revert w' H' O'. nx w1 H1 O1. rewrite Z.sub_add in Vio.
  eapply (tri_prepend S x h (wOpen w) (wFS w) q0 wbad wbad); [exact H1|rewrite O1; exact AI|unfold INT_MAX; lia|].
  intros bu w' H' O' Vbu. revert w' H' O'. nx w1 H1 O1. rewrite Z.sub_add in Vbu.
  eapply (tri_prepend S x h (wOpen w) (wFS w) q0 wbad wbad); [exact H1|rewrite O1; exact AG|unfold INT_MAX; lia|].
  intros bv w' H' O' Vbv. revert w' H' O'. nx w1 H1 O1. rewrite Z.sub_add in Vbv.
  rewrite (vec_is_asize _ _ _ Vio), (vec_is_asize _ _ _ Vbu), (vec_is_asize _ _ _ Vbv).
  do 3 (pt w1 H1 O1; [apply good_LA; lia|]).
  eapply (tri_new_vec S x h (wOpen w) (wFS w) q0 wbad wbad); [exact H1|lia|].
  intros be w' H' O' Vbe. revert w' H' O'. nx w1 H1 O1. rewrite (proj1 Vbe).
  pt w1 H1 O1; [apply good_LA; lia|].
  eapply (tri_zero_vec S x h (wOpen w) (wFS w) q0 wbad wbad); [exact H1|lia|].
  intros dp w' H' O' Vdp. revert w' H' O'. nx w1 H1 O1.
  eapply (tri_zero_vec S x h (wOpen w) (wFS w) q0 wbad wbad); [exact H1|lia|].
  intros dc w' H' O' Vdc. revert w' H' O'. nx w1 H1 O1.
  eapply (tri_zero_vec S x h (wOpen w) (wFS w) q0 wbad wbad); [exact H1|lia|].
  intros di w' H' O' Vdi. revert w' H' O'. nx w1 H1 O1.
  eapply (tri_lift_w S x h (wOpen w) (wFS w) q0 wbad wbad); [exact H1|].
  apply wp_getarr; [exact Logic.I|]. cbn [wp]. cbv beta.
  intros w' H' O'. rewrite O1 in O' |- *. clear w1 H1 O1. rename w' into w1. rename H' into H1. rename O' into O1.
  assert (Vio' : vec_is io (b_radius S d) (b_iota S d)).
  { eapply vec_ext; [|exact Vio]. cbv beta. intros j Hj. destruct (Z.eqb_spec j 0); [subst; congruence|]. f_equal. lia. }
  assert (Vbu' : vec_is bu (b_radius S d) (b_I S d)).
  { eapply vec_ext; [|exact Vbu]. cbv beta. intros j Hj. destruct (Z.eqb_spec j 0); [subst; congruence|]. f_equal. lia. }
  assert (Vbv' : vec_is bv (b_radius S d) (b_G S d)).
  { eapply vec_ext; [|exact Vbv]. cbv beta. intros j Hj. destruct (Z.eqb_spec j 0); [subst; congruence|]. f_equal. lia. }
  clear Vio Vbu Vbv.
  rewrite (vec_is_asize _ _ _ Vdp), (vec_is_asize _ _ _ Vdc), (vec_is_asize _ _ _ Vdi).
  pose proof (after_same fl o) as SP.
  assert (Bm : forall y m, In (y, m) bvars_sym -> mat_is (oA (after fl o) m) (b_mnboz S d) (b_nsurf S d) (g m)).
  { intros y m Hin. rewrite (sp_A _ _ _ _ SP); [now apply (Asym y)|]. cbn in Hin. intros ->. intuition discriminate. }
  assert (Ba : b_asym S d = true -> forall y m, In (y, m) bvars_asym -> mat_is (oA (after fl o) m) (b_mnboz S d) (b_nsurf S d) (g m)).
  { intros As y m Hin. rewrite (sp_A _ _ _ _ SP); [now apply (AasymM As y)|]. cbn in Hin. intros ->. intuition discriminate. }
  assert (Bn : forall f, oN (after fl o) f = oN o f) by apply SP.
  assert (Bi : forall f, oI (after fl o) f = oI o f) by apply SP.
  assert (Bf : forall f, oF (after fl o) f = oF o f) by apply SP.
  assert (Efl : fl = true \/ fl = false) by (destruct fl; auto). destruct Efl as [Efl|Efl].
  - destruct (Aflux Efl) as (Vph & Eph & Vch & Vpr & Vpi). rewrite (vec_is_asize _ _ _ Vph).
    destruct (Z.eqb_spec (b_radius S d) 0); [lia|].
    apply tri_bind.
    eapply (tri_lift_w S x h (wOpen w) (wFS w) q0 wbad wbad); [exact H1|].
    apply wp_unbind. apply wp_putv; [rewrite O1; destruct Vph as (_ & _ & _ & V); rewrite V by lia; eauto|exact Logic.I|].
    cbn [wp]. cbv beta. rewrite O1. 
    assert (Eaf : after fl o = updA o A_phip (aput (oA o A_phip) 0 (fofZ S 0))) by (unfold after; now rewrite Efl).
    rewrite <- Eaf. clear w1 H1 O1. intros w1 H1 O1.
    assert (Xph : vec_is (oA (after fl o) A_phip) (b_radius S d) (b_phip S d)).
    { rewrite Eaf. cbn. eapply vec_ext; [|apply vec_is_put; [lia|exact Vph]]. cbv beta. intros j Hj. now rewrite Eph. }
    assert (Xch : vec_is (oA (after fl o) A_chi) (b_radius S d) (b_chi S d)) by (rewrite Eaf; exact Vch).
    assert (Xpr : vec_is (oA (after fl o) A_pres) (b_radius S d) (b_pres S d)) by (rewrite Eaf; exact Vpr).
    assert (Xpi : vec_is (oA (after fl o) A_phi) (b_radius S d) (b_phi S d)) by (rewrite Eaf; exact Vpi).
    eapply (tri_put_arr S x h (wOpen w) (wFS w) q0 wbad wbad okk HE HE) with (n := b_radius S d);
      [exact H1|okg O1|reflexivity|dimg|rewrite O1; now apply vec_is_asize in Xph|lia|nx w1 H1 O1].
    eapply (tri_put_arr S x h (wOpen w) (wFS w) q0 wbad wbad okk HE HE) with (n := b_radius S d);
      [exact H1|okg O1|reflexivity|dimg|rewrite O1; now apply vec_is_asize in Xch|lia|nx w1 H1 O1].
    eapply (tri_put_arr S x h (wOpen w) (wFS w) q0 wbad wbad okk HE HE) with (n := b_radius S d);
      [exact H1|okg O1|reflexivity|dimg|rewrite O1; now apply vec_is_asize in Xpr|lia|nx w1 H1 O1].
    eapply (tri_put_arr S x h (wOpen w) (wFS w) q0 wbad wbad okk HE HE) with (n := b_radius S d);
      [exact H1|okg O1|reflexivity|dimg|rewrite O1; now apply vec_is_asize in Xpi|lia|nx w1 H1 O1].
    apply tri_ret. cbv beta iota.
    pm w1 H1 O1 Bm. pm w1 H1 O1 Bm. pm w1 H1 O1 Bm.
    eapply (tri_neg S x h (wOpen w) (wFS w) q0 wbad wbad); [exact H1|rewrite O1; apply (Bm "pmns_b"%string); cbn; auto 10|].
    intros pm w' H' O' Vpm. revert w' H' O'. nx w1 H1 O1.
    eapply (tri_put_local_mat S x h (wOpen w) (wFS w) q0 wbad wbad okk HE HE) with (r := b_mnboz S d) (c := b_nsurf S d);
      [exact H1|okg O1|reflexivity|exact DS2|exact Vpm|lia|lia|nx w1 H1 O1].
    pm w1 H1 O1 Bm.
    assert (Ea : b_asym S d = true \/ b_asym S d = false) by (destruct (b_asym S d); auto). destruct Ea as [Ea|Ea]; rewrite Ea.
    + apply tri_bind. specialize (Ba Ea). pm w1 H1 O1 Ba. pm w1 H1 O1 Ba. pm w1 H1 O1 Ba.
      eapply (tri_neg S x h (wOpen w) (wFS w) q0 wbad wbad); [exact H1|rewrite O1; apply (Ba "pmnc_b"%string); cbn; auto 10|].
      intros pm' w' H' O' Vpm'. revert w' H' O'. nx w1 H1 O1.
      eapply (tri_put_local_mat S x h (wOpen w) (wFS w) q0 wbad wbad okk HE HE) with (r := b_mnboz S d) (c := b_nsurf S d);
        [exact H1|okg O1|reflexivity|exact DS2|exact Vpm'|lia|lia|nx w1 H1 O1].
      pm w1 H1 O1 Ba. apply tri_ret. cbv beta iota.
      match goal with |- tri (write_and_close S _ ?e) _ _ _ _ => set (env := e) end.
      eapply (tri_write_and_close S x h (wOpen w) (wFS w) q0 wbad wbad okk HE HE); [exact H1|okg O1| | | |].
      * apply nodupb_ok. vm_compute. reflexivity.
      * reflexivity.
      * instantiate (1 := symvals (after fl o) d (oF o F_aspect) jl io bu bv be (oA (after fl o) A_phip) (oA (after fl o) A_chi)
          (oA (after fl o) A_pres) (oA (after fl o) A_phi) pm ++ asymvals (after fl o) pm').
        rewrite <- Bn in Axm, Axn. fin Bm Ba O1 Alasym Ea Ans Anfp Amboz Anboz Amnboz Bi Bf.
      * intros w' P1 P2 P3 P4 (f' & P5 & P6 & P7 & P8) P9. unfold wgood. splits; auto; [|congruence]. exists f'. split; auto.
        eapply written_of with (o1 := after fl o) (pm' := pm') (g := g); [exact P6|rewrite P7, Ea, Efl; reflexivity|rewrite P8, Ea; reflexivity|..];
          try eassumption; try (rewrite Bn; assumption); auto.
        rewrite Efl. split; apply Vbe.
    + apply tri_bind, tri_ret. cbv beta iota.
      match goal with |- tri (write_and_close S _ ?e) _ _ _ _ => set (env := e) end.
      eapply (tri_write_and_close S x h (wOpen w) (wFS w) q0 wbad wbad okk HE HE); [exact H1|okg O1| | | |].
      * apply nodupb_ok. vm_compute. reflexivity.
      * reflexivity.
      * instantiate (1 := symvals (after fl o) d (oF o F_aspect) jl io bu bv be (oA (after fl o) A_phip) (oA (after fl o) A_chi)
          (oA (after fl o) A_pres) (oA (after fl o) A_phi) pm).
        rewrite <- Bn in Axm, Axn. fin Bm Bm O1 Alasym Ea Ans Anfp Amboz Anboz Amnboz Bi Bf.
      * intros w' P1 P2 P3 P4 (f' & P5 & P6 & P7 & P8) P9. unfold wgood. splits; auto; [|congruence]. exists f'. split; auto.
        eapply written_of with (o1 := after fl o) (pm' := pm) (g := g); [exact P6|rewrite P7, Ea, Efl; reflexivity|rewrite P8, Ea; reflexivity|..];
          try eassumption; try (rewrite Bn; assumption); auto.
        -- rewrite Efl. split; apply Vbe.
        -- intros; congruence.
  - destruct (Anoflux Efl) as (Nph & Nz). rewrite Nph. cbn [Z.eqb].
    apply tri_bind.
    eapply (tri_zero_vec S x h (wOpen w) (wFS w) q0 wbad wbad); [exact H1|lia|].
    intros pr w' H' O' Vpr. revert w' H' O'. nx w1 H1 O1. rewrite (vec_is_asize _ _ _ Vpr).
    do 4 (pt w1 H1 O1; [apply good_LA; lia|]). apply tri_ret. cbv beta iota.
    assert (Eaf : after fl o = o) by (unfold after; now rewrite Efl). rewrite <- Eaf in O1.
    assert (Vdp' : vec_is dp (b_radius S d) (b_phip S d)) by (eapply vec_ext; [|exact Vdp]; intros j _; symmetry; apply Nz).
    assert (Vdc' : vec_is dc (b_radius S d) (b_chi S d)) by (eapply vec_ext; [|exact Vdc]; intros j _; symmetry; apply Nz).
    assert (Vpr' : vec_is pr (b_radius S d) (b_pres S d)) by (eapply vec_ext; [|exact Vpr]; intros j _; symmetry; apply Nz).
    assert (Vdi' : vec_is di (b_radius S d) (b_phi S d)) by (eapply vec_ext; [|exact Vdi]; intros j _; symmetry; apply Nz).
    pm w1 H1 O1 Bm. pm w1 H1 O1 Bm. pm w1 H1 O1 Bm.
    eapply (tri_neg S x h (wOpen w) (wFS w) q0 wbad wbad); [exact H1|rewrite O1; apply (Bm "pmns_b"%string); cbn; auto 10|].
    intros pm w' H' O' Vpm. revert w' H' O'. nx w1 H1 O1.
    eapply (tri_put_local_mat S x h (wOpen w) (wFS w) q0 wbad wbad okk HE HE) with (r := b_mnboz S d) (c := b_nsurf S d);
      [exact H1|okg O1|reflexivity|exact DS2|exact Vpm|lia|lia|nx w1 H1 O1].
    pm w1 H1 O1 Bm.
    assert (Ea : b_asym S d = true \/ b_asym S d = false) by (destruct (b_asym S d); auto). destruct Ea as [Ea|Ea]; rewrite Ea.
    + apply tri_bind. specialize (Ba Ea). pm w1 H1 O1 Ba. pm w1 H1 O1 Ba. pm w1 H1 O1 Ba.
      eapply (tri_neg S x h (wOpen w) (wFS w) q0 wbad wbad); [exact H1|rewrite O1; apply (Ba "pmnc_b"%string); cbn; auto 10|].
      intros pm' w' H' O' Vpm'. revert w' H' O'. nx w1 H1 O1.
      eapply (tri_put_local_mat S x h (wOpen w) (wFS w) q0 wbad wbad okk HE HE) with (r := b_mnboz S d) (c := b_nsurf S d);
        [exact H1|okg O1|reflexivity|exact DS2|exact Vpm'|lia|lia|nx w1 H1 O1].
      pm w1 H1 O1 Ba. apply tri_ret. cbv beta iota.
      match goal with |- tri (write_and_close S _ ?e) _ _ _ _ => set (env := e) end.
      eapply (tri_write_and_close S x h (wOpen w) (wFS w) q0 wbad wbad okk HE HE); [exact H1|okg O1| | | |].
      * apply nodupb_ok. vm_compute. reflexivity.
      * reflexivity.
      * instantiate (1 := symvals (after fl o) d (oF o F_aspect) jl io bu bv pr dp dc pr di pm ++ asymvals (after fl o) pm').
        rewrite <- Bn in Axm, Axn. fin Bm Ba O1 Alasym Ea Ans Anfp Amboz Anboz Amnboz Bi Bf.
      * intros w' P1 P2 P3 P4 (f' & P5 & P6 & P7 & P8) P9. unfold wgood. splits; auto; [|congruence]. exists f'. split; auto.
        eapply written_of with (o1 := after fl o) (pm' := pm') (g := g); [exact P6|rewrite P7, Ea, Efl; reflexivity|rewrite P8, Ea; reflexivity|..];
          try eassumption; try (rewrite Bn; assumption); auto.
        rewrite Efl. split; [apply Vpr|]. exact (vec_all _ _ _ Vpr).
    + apply tri_bind, tri_ret. cbv beta iota.
      match goal with |- tri (write_and_close S _ ?e) _ _ _ _ => set (env := e) end.
      eapply (tri_write_and_close S x h (wOpen w) (wFS w) q0 wbad wbad okk HE HE); [exact H1|okg O1| | | |].
      * apply nodupb_ok. vm_compute. reflexivity.
      * reflexivity.
      * instantiate (1 := symvals (after fl o) d (oF o F_aspect) jl io bu bv pr dp dc pr di pm).
        rewrite <- Bn in Axm, Axn. fin Bm Bm O1 Alasym Ea Ans Anfp Amboz Anboz Amnboz Bi Bf.
      * intros w' P1 P2 P3 P4 (f' & P5 & P6 & P7 & P8) P9. unfold wgood. splits; auto; [|congruence]. exists f'. split; auto.
        eapply written_of with (o1 := after fl o) (pm' := pm) (g := g); [exact P6|rewrite P7, Ea, Efl; reflexivity|rewrite P8, Ea; reflexivity|..];
          try eassumption; try (rewrite Bn; assumption); auto.
        -- rewrite Efl. split; [apply Vpr|]. exact (vec_all _ _ _ Vpr).
        -- intros; congruence.
Qed.
End Spec.
End WriteB.

(** C72: what each call changes. *)
From Coq Require Import ZArith List String Bool Lia.
From Verif Require Import Scalar Prog Model Wp Func Step TrigProof InitProof RunProof Spec FuncExt RunThms
  Vmec VmecSpec VmecProof VmecRun VmecThms
  Nc NcModel NcSpec NcTri NcRead NcBoozmn NcWout NcWrite NcWriteB NcVoc NcThms NcThms3 NcThms4
  Driver DriverSpec DriverProof DriverThms PyProof PyKeep Py PySpec PyInv PyThms Frame.
Import ListNotations.
Local Open Scope Z_scope.

Lemma mem_eq_dec : forall x y : mem, {x = y} + {x <> y}.
Proof. decide equality; first [apply ifield_eq_dec|apply bfield_eq_dec|apply ffield_eq_dec|apply nfield_eq_dec|apply afield_eq_dec]. Defined.
Lemma in_by x l : (if in_dec mem_eq_dec x l then true else false) = true -> In x l.
Proof. destruct (in_dec mem_eq_dec x l); [auto|discriminate]. Qed.
Ltac inl := apply in_by; reflexivity.

Ltac sp1 := lazymatch goal with
  | |- spares _ (bind _ _) => apply spares_bind; [|intros ?]
  | |- spares _ (for_ _ _ _ _) => apply spares_for; intros ? ?
  | |- spares _ (Ret _) => exact Logic.I
  | |- spares _ (Throw _) => exact Logic.I
  | |- spares _ (UB _) => exact Logic.I
  | |- spares _ (if ?c then _ else _) => destruct c
  | |- spares _ (match ?x with pair _ _ => _ end) => destruct x
  | |- spares _ (geti _) => intros ?; exact Logic.I
  | |- spares _ (getb _) => intros ?; exact Logic.I
  | |- spares _ (getn _ _) => intros ?; exact Logic.I
  | |- spares _ (getv _ _) => intros ?; exact Logic.I
  | |- spares _ (getarr _) => intros ?; exact Logic.I
  | |- spares _ (sizen _) => intros ?; exact Logic.I
  | |- spares _ (out _ _ _) => exact Logic.I
  | |- spares _ (seti _ _) => split; [inl|exact Logic.I]
  | |- spares _ (setb _ _) => split; [inl|exact Logic.I]
  | |- spares _ (setf _ _) => split; [inl|exact Logic.I]
  | |- spares _ (setn _ _) => split; [inl|exact Logic.I]
  | |- spares _ (setarr _ _) => split; [inl|exact Logic.I]
  | |- spares _ (putv _ _ _) => split; [inl|exact Logic.I]
  | |- spares _ (putm _ _ _ _) => apply spares_putm; inl
  | |- spares _ (getm _ _ _) => apply spares_getm
  | |- spares _ (vget _ _) => apply spares_vget
  | |- spares _ (vset _ _ _) => apply spares_vset
  | |- spares _ (vinc _ _ _) => apply spares_vinc
  | |- spares _ (mget _ _ _) => apply spares_mget
  | |- spares _ (mset _ _ _ _) => apply spares_mset
  | |- spares _ (zeros _ _ _) => apply spares_zeros
  | |- spares _ (resize _ _ _) => apply spares_resize
  | |- spares _ (iadd _ _) => apply spares_int
  | |- spares _ (isub _ _) => apply spares_int
  | |- spares _ (imul _ _) => apply spares_int
  | |- spares _ (iabs _) => apply spares_int
  | |- spares _ (int_ _) => apply spares_int
  | |- spares _ (idiv _ _) => apply spares_idiv
  | |- spares _ (irem _ _) => apply spares_irem
  | |- spares _ (vet_cols _ _ _) => apply spares_vet_cols
  | |- spares _ (vet_rows _ _) => apply spares_vet_rows
  | |- spares _ (incs _ _ _ _) => apply spares_incs; intros ? Hp; cbn in Hp; repeat destruct Hp as [<-|Hp]; try contradiction; inl
  | |- spares _ (let _ := _ in _) => cbv zeta
  end.
Ltac sp := repeat sp1.

Section Thms.
Context {S : Scalar}.
Notation obj := (obj S).
Notation world := (world S).

(** ** run() *)
Definition run_members : list mem := private_members ++ result_members.
Lemma spares_init_trig L th ze t a b c : spares L (init_trig S th ze t a b c).
Proof. unfold init_trig, it_first, it_second, it_rec. sp. Qed.
Lemma spares_head : spares run_members (run_head S).
Proof.
  unfold run_head. sp. unfold init. sp; try apply spares_init_trig.
  - unfold init_modes. sp.
  - unfold init_grid. sp.
Qed.
Lemma spares_vexpr L n v (e : Z -> prog S (F S)) : (forall j, spares L (e j)) -> spares L (vexpr S n v e).
Proof. intros H. unfold vexpr. apply spares_for. intros j a. apply spares_bind; [apply H|]. intros; apply spares_vset. Qed.
Lemma spares_angles asy js jb n : spares run_members (surface_angles S asy js jb n).
Proof.
  unfold surface_angles. sp.
  - unfold transp. sp.
  - unfold vcoords_rz. sp.
  - unfold vcoords_w. sp.
  - unfold harfun. sp; apply spares_vexpr; intros; sp.
Qed.
Lemma spares_surface jb : spares run_members (surface_solve S jb).
Proof.
  unfold surface_solve. sp; try apply spares_init_trig; try apply spares_angles.
  - unfold half_weights, halve. sp.
  - apply spares_vexpr. intros; sp.
  - unfold accumulate. sp.
  - unfold check_accuracy, check_indices, at4, check_sum. sp. apply spares_init_trig.
Qed.
Lemma spares_bx_run : spares run_members (bx_run S).
Proof. unfold bx_run. sp; [apply spares_head|apply spares_surface]. Qed.

(** ** init_from_vmec *)
Section Vmec.
Variable L : list mem.
Hypothesis HL : forall x, In x vmec_members -> In x L.
Lemma spares_mono {A} (p : prog S A) : forall L' : list mem, (forall x, In x L -> In x L') -> spares L p -> spares L' p.
Proof. intros L' H. induction p; cbn; intros; firstorder. Qed.
End Vmec.
Lemma spares_resize_member f r c : In (MA f) vmec_members -> spares vmec_members (resize_member S f r c).
Proof. intros H. unfold resize_member. sp. split; [exact H|exact Logic.I]. Qed.
Lemma spares_fill L f n x : In (MA f) L -> (forall j, spares L (x j)) -> spares L (fill_vec S f n x).
Proof. intros H Hx. unfold fill_vec. sp; auto. split; [exact H|exact Logic.I]. Qed.
Lemma spares_drop_first f r n x : In (MA f) vmec_members -> spares vmec_members (drop_first S f r n x).
Proof. intros H. unfold drop_first. sp. split; [exact H|exact Logic.I]. Qed.
Lemma spares_interp f a b x y z : In (MA f) vmec_members -> spares vmec_members (interp S f a b x y z).
Proof. intros H. unfold interp. sp. split; [exact H|exact Logic.I]. Qed.
Lemma spares_elems_n L f : spares L (elems_n S f).
Proof. unfold elems_n. sp. Qed.
Lemma spares_elems L {T} (a : array T) : spares L (elems S a).
Proof. unfold elems. sp. Qed.
Ltac spv := repeat first [progress sp
  | apply spares_resize_member; inl | apply spares_fill; [inl|intros ?] | apply spares_drop_first; inl | apply spares_interp; inl
  | apply spares_elems | apply spares_elems_n | unfold reject; sp1 ].
Lemma spares_vmec v : spares vmec_members (init_from_vmec S v).
Proof.
  unfold init_from_vmec. spv.
  - unfold vet. spv.
  - unfold store_profiles. spv.
  - unfold store_half. spv.
  - unfold report. spv.
  - unfold radial_grids. spv.
Qed.

(** ** Files *)
Ltac q1 := lazymatch goal with
  | |- quiet _ (ibind _ _) => apply quiet_bind; [|intros ?]
  | |- quiet _ (iret _) => apply quiet_ret
  | |- quiet _ (iub _) => apply quiet_ub
  | |- quiet _ (ithrow _) => apply quiet_throw
  | |- quiet _ (lift _) => apply quiet_lift; sp
  | |- quiet _ (itry _) => apply quiet_try
  | |- quiet _ (theobj _) => apply quiet_obj
  | |- quiet _ (chatter _ _) => apply quiet_lift; sp
  | |- quiet _ (reader _ _) => apply quiet_reader
  | |- quiet _ (getdim _ _ _) => apply quiet_getdim
  | |- quiet _ (rclose _ _) => apply quiet_rclose
  | |- quiet _ (get_int _ _ _ _) => apply quiet_get_int; inl
  | |- quiet _ (get_flt _ _ _ _) => apply quiet_get_flt; inl
  | |- quiet _ (get_ints _ _ _ _) => apply quiet_get_ints; inl
  | |- quiet _ (get_arr _ _ _ _) => apply quiet_get_arr; inl
  | |- quiet _ (get_local_int _ _ _) => apply quiet_get_local_int
  | |- quiet _ (get_local _ _ _ _) => apply quiet_get_local
  | |- quiet _ (val _ _) => apply quiet_val
  | |- quiet _ (new_vec _ _) => apply quiet_lift; sp
  | |- quiet _ (new_mat _ _ _) => apply quiet_lift; sp
  | |- quiet _ (zero_vec _ _) => apply quiet_lift; sp
  | |- quiet _ (get_vec _ _ _ _) => unfold get_vec
  | |- quiet _ (get_mat _ _ _ _ _) => unfold get_mat
  | |- quiet _ (resize_ints _ _ _) => unfold resize_ints
  | |- quiet _ (resize_arr _ _ _ _) => unfold resize_arr, resize_member
  | |- quiet _ (if ?c then _ else _) => destruct c
  | |- quiet _ (match ?x with pair _ _ => _ end) => destruct x
  | |- quiet _ (let _ := _ in _) => cbv zeta
  end.
Ltac q := repeat q1.
Lemma quiet_wout x fl : quiet (changes (@ReadWout S x fl)) (read_wout S x fl).
Proof.
  unfold read_wout. q.
  apply spares_mono with (L := vmec_members); [|apply spares_vmec]. intros y Hy. cbn [changes]. apply in_or_app. now right.
Qed.
Lemma spares_neg L (a : arr S) : spares L (neg_arr S a).
Proof. unfold neg_arr. sp. Qed.
Lemma quiet_boozmn x : quiet (changes (@ReadBoozmn S x)) (read_boozmn S x).
Proof.
  unfold read_boozmn. q; try apply spares_neg; try apply spares_elems; try apply spares_elems_n;
    apply spares_fill; [inl|intros; sp|inl|intros; sp|inl|intros; sp|inl|intros; sp].
Qed.
Lemma quiet_wchk L {A} (c : code A) : quiet L (wchk S c).
Proof. destruct c; [apply quiet_throw|apply quiet_ret]. Qed.
Lemma quiet_att L nc x a u : quiet L (add_attribute S nc x a u).
Proof.
  unfold add_attribute. apply quiet_bind; [destruct (_ <? _)%nat|intros _; destruct (_ <? _)%nat]; try apply quiet_ret;
    (apply quiet_bind; [apply quiet_define|intros; apply quiet_wchk]).
Qed.
Lemma quiet_put L nc ds x ty p a u : quiet L (put S nc ds x ty p a u).
Proof.
  unfold put. apply quiet_bind; [apply quiet_define|]. intros c. apply quiet_bind; [apply quiet_wchk|]. intros _.
  apply quiet_bind.
  - destruct p as [f|f|f n|f n|y|y|y n|y n|y n]; try apply quiet_ret; destruct n; try apply quiet_ret; apply quiet_ub.
  - intros _. apply quiet_bind; [apply quiet_att|intros; apply quiet_ret].
Qed.
Lemma quiet_put_string L nc x n s a : quiet L (put_string S nc x n s a).
Proof.
  unfold put_string. cbv zeta. apply quiet_bind; [apply quiet_inq_dimid|]. intros c. apply quiet_bind.
  - destruct c; [|apply quiet_ret]. apply quiet_bind; [apply quiet_define|intros; apply quiet_wchk].
  - intros _. apply quiet_bind; [apply quiet_define|]. intros c'. apply quiet_bind; [apply quiet_wchk|]. intros _.
    apply quiet_bind; [apply quiet_att|intros; apply quiet_ret].
Qed.
Lemma quiet_put_ints L nc ds x f a u : quiet L (put_ints S nc ds x f a u).
Proof. unfold put_ints. apply quiet_bind; [apply quiet_obj|intros; apply quiet_put]. Qed.
Lemma quiet_put_arr L nc ds x f a u : quiet L (put_arr S nc ds x f a u).
Proof. unfold put_arr. apply quiet_bind; [apply quiet_obj|intros; apply quiet_put]. Qed.
Lemma quiet_put_mat L nc x f a u : quiet L (put_mat S nc x f a u).
Proof.
  unfold put_mat. apply quiet_bind; [apply quiet_obj|]. intros o. apply quiet_bind; [destruct (inside _ _ _ _); [apply quiet_ret|apply quiet_ub]|].
  intros; apply quiet_put.
Qed.
Lemma quiet_put_local_mat L nc x m a u : quiet L (put_local_mat S nc x m a u).
Proof.
  unfold put_local_mat. apply quiet_bind; [destruct (inside _ _ _ _); [apply quiet_ret|apply quiet_ub]|]. intros; apply quiet_put.
Qed.
Lemma quiet_wdim L nc x n : quiet L (wdim S nc x n).
Proof. unfold wdim. apply quiet_bind; [apply quiet_define|intros; apply quiet_wchk]. Qed.
Lemma quiet_new_writer L x : quiet L (new_writer S x).
Proof. unfold new_writer. apply quiet_bind; [apply quiet_create|]. intros c. apply quiet_bind; [apply quiet_wchk|intros; apply quiet_ret]. Qed.
Lemma quiet_wac L nc env : quiet L (write_and_close S nc env).
Proof.
  unfold write_and_close. apply quiet_bind; [apply quiet_enddef|]. intros c. apply quiet_bind; [apply quiet_wchk|]. intros _.
  apply quiet_bind; [|intros _; apply quiet_bind; [apply quiet_close|intros; apply quiet_wchk]].
  induction (wr_regs nc) as [|(x, p) l IH]; cbn [put_all]; [apply quiet_ret|].
  apply quiet_bind; [apply quiet_put_var|]. intros c'. apply quiet_bind; [apply quiet_wchk|intros _; exact IH].
Qed.
Lemma quiet_prepend L f n : quiet L (prepend_zero S f n).
Proof. unfold prepend_zero. q. Qed.
Ltac qw := repeat first [progress q | apply quiet_put | apply quiet_put_string | apply quiet_put_ints | apply quiet_put_arr | apply quiet_put_mat
  | apply quiet_put_local_mat | apply quiet_wdim | apply quiet_new_writer | apply quiet_wac | apply quiet_prepend | apply spares_neg].
Lemma quiet_write version x : quiet (changes (@Write S x)) (write_boozmn S version x).
Proof. unfold write_boozmn. qw. Qed.

(** ** The theorems *)
Lemma exec_quiet version (c : call S) : c <> New -> quiet (changes c) (exec version c).
Proof.
  intros H. destruct c; try contradiction; unfold exec.
  - destruct (rw_int f); [|apply quiet_throw]. destruct (in_int v); [|apply quiet_throw]. apply quiet_lift. split; [now left|exact Logic.I].
  - destruct (rw_bool f); [|apply quiet_throw]. apply quiet_lift. split; [now left|exact Logic.I].
  - destruct (rw_flt f); [|apply quiet_throw]. apply quiet_lift. split; [now left|exact Logic.I].
  - destruct (rw_ints f); [|apply quiet_throw]. apply quiet_lift. split; [now left|exact Logic.I].
  - destruct (rw_arr f); [|apply quiet_throw]. destruct (is_vector f && negb (c =? 1)%nat); [apply quiet_throw|]. apply quiet_lift. split; [now left|exact Logic.I].
  - apply quiet_wout.
  - apply quiet_lift, spares_vmec.
  - apply quiet_lift, spares_bx_run.
  - apply quiet_write.
  - apply quiet_boozmn.
  - intros w. apply same_refl.
Qed.
Theorem changes_only version (c : call S) (w w' : world) : c <> New -> leaves version c w w' ->
  forall x, ~ In x (changes c) -> kept_in (wO w) (wO w') x.
Proof.
  intros H Hl. pose proof (exec_quiet version c H w) as Q. destruct Hl as [E|[(m & E)|E]]; rewrite E in Q; exact Q.
Qed.

Lemma not_result (c : call S) x : brings_results c = false -> (forall f v, c = PutInt f v -> rw_int f = true) ->
  (forall f n g, c = PutInts f n g -> rw_ints f = true) -> (forall f r k g, c = PutArr f r k g -> rw_arr f = true) ->
  In x result_members -> ~ In x (changes c).
Proof.
  intros B H1 H2 H3 Hx. destruct c; try discriminate.
  - specialize (H1 f v eq_refl). cbn. intros [<-|[]]. destruct f; try discriminate H1; cbn in Hx; intuition discriminate.
  - cbn. intros [<-|[]]. cbn in Hx. intuition discriminate.
  - cbn. intros [<-|[]]. cbn in Hx. intuition discriminate.
  - specialize (H2 f n g eq_refl). cbn. intros [<-|[]]. destruct f; try discriminate H2; cbn in Hx; intuition discriminate.
  - specialize (H3 f r c g eq_refl). cbn. intros [<-|[]]. destruct f; try discriminate H3; cbn in Hx; intuition discriminate.
  - cbn in Hx |- *. intros G. intuition (subst; discriminate).
  - cbn in Hx |- *. intros G. intuition (subst; discriminate).
  - cbn in Hx |- *. intros G. intuition (subst; discriminate).
  - auto.
Qed.
Lemma no_setter_same version (c : call S) (w w' : world) : leaves version c w w' ->
  (exists f v, c = PutInt f v /\ rw_int f = false) \/ (exists f n g, c = PutInts f n g /\ rw_ints f = false) \/
  (exists f r k g, c = PutArr f r k g /\ rw_arr f = false) -> w' = w.
Proof.
  intros L [(f & v & -> & E)|[(f & n & g & -> & E)|(f & r & k & g & -> & E)]]; unfold leaves, exec in L; rewrite E in L;
    unfold no_setter, ithrow in L; destruct L as [L|[(m & L)|L]]; congruence.
Qed.
Lemma step_results version (c : call S) (w w' : world) x : brings_results c = false -> leaves version c w w' ->
  In x result_members -> kept_in (wO w) (wO w') x.
Proof.
  intros B Hl Hx.
  assert (D : w' = w \/ ~ In x (changes c)).
  { destruct c; try discriminate B; try (right; apply not_result; auto; intros; congruence).
    - destruct (rw_int f) eqn:E; [right|left].
      + apply not_result; auto; intros ? **; congruence.
      + eapply no_setter_same; [exact Hl|]. left. eauto.
    - destruct (rw_ints f) eqn:E; [right|left].
      + apply not_result; auto; intros ? **; congruence.
      + eapply no_setter_same; [exact Hl|]. right. left. eauto.
    - destruct (rw_arr f) eqn:E; [right|left].
      + apply not_result; auto; intros ? **; congruence.
      + eapply no_setter_same; [exact Hl|]. right. right. eauto 6. }
  destruct D as [->|D]; [destruct x; reflexivity|].
  apply (changes_only version c); auto. intros ->. discriminate B.
Qed.
Theorem results_kept version l (w w' : world) : performs version l w w' -> forallb (fun c => negb (brings_results c)) l = true ->
  forall x, In x result_members -> kept_in (wO w) (wO w') x.
Proof.
  intros H. induction H as [w|c l w w1 w2 E H IH|c l w m w1 w2 E H IH]; intros B x Hx.
  - destruct x; reflexivity.
  - cbn in B. apply andb_prop in B. destruct B as (B1 & B2). apply negb_true_iff in B1.
    assert (G : kept_in (wO w) (wO w1) x) by (apply (step_results version c); auto; left; exact E).
    specialize (IH B2 x Hx). destruct x; cbn in *; congruence.
  - cbn in B. apply andb_prop in B. destruct B as (B1 & B2). apply negb_true_iff in B1.
    assert (G : kept_in (wO w) (wO w1) x) by (apply (step_results version c); auto; right; left; eauto).
    specialize (IH B2 x Hx). destruct x; cbn in *; congruence.
Qed.

(** ** Assignments *)
Theorem read_only version (c : call S) x (w : world) : target c = Some x -> ~ In x input_members ->
  exec version c w = IThrow "AttributeError: can't set attribute" w.
Proof.
  intros T H. destruct c; try discriminate T; cbn in T; injection T as <-; unfold exec.
  all: destruct f; first [reflexivity|exfalso; apply H; inl].
Qed.
Lemma outputs_not_inputs x : In x (result_members ++ private_members) -> ~ In x input_members.
Proof. intros H. cbn in H. repeat destruct H as [<-|H]; try contradiction; cbn; intuition discriminate. Qed.
Theorem wrong_type version (c : call S) x (w : world) : target c = Some x -> In x input_members -> ~ convertible c ->
  exec version c w = IThrow "TypeError: incompatible function arguments" w.
Proof.
  intros T H C. destruct c; try discriminate T; cbn in T; injection T as <-; unfold exec; cbn in C; try tauto.
  - assert (E : rw_int f = true) by (destruct f; try reflexivity; cbn in H; intuition discriminate).
    rewrite E. assert (G : in_int v = false). { unfold in_int, INT_MIN, INT_MAX. apply andb_false_iff. rewrite !Z.leb_gt. lia. }
    rewrite G. reflexivity.
  - assert (E : rw_arr f = true) by (destruct f; try reflexivity; cbn in H; intuition discriminate).
    rewrite E. assert (G : c <> 1%nat) by auto. apply Nat.eqb_neq in G. rewrite G.
    destruct f; try discriminate E; try reflexivity; exfalso; apply C; intros G'; cbn in G'; intuition discriminate.
Qed.
Theorem assigned version (c : call S) x (w : world) : target c = Some x -> In x input_members -> convertible c ->
  exists w', exec version c w = IOk tt w' /\ stored c (wO w') /\ (forall y, y <> x -> kept_in (wO w) (wO w') y) /\
    wFS w' = wFS w /\ wOpen w' = wOpen w /\ wEv w' = wEv w.
Proof.
  intros T H C.
  assert (G : exists w', exec version c w = IOk tt w' /\ stored c (wO w') /\ wFS w' = wFS w /\ wOpen w' = wOpen w /\ wEv w' = wEv w).
  { destruct c; try discriminate T; cbn in T; injection T as <-; unfold exec; cbn in C.
    - assert (E : rw_int f = true) by (destruct f; try reflexivity; cbn in H; intuition discriminate).
      rewrite E. assert (G : in_int v = true). { unfold in_int, INT_MIN, INT_MAX. apply andb_true_iff. rewrite !Z.leb_le. lia. }
      rewrite G. eexists. split; [reflexivity|]. cbn. rewrite app_nil_r. repeat split. destruct (ifield_eq_dec f f); congruence.
    - assert (E : rw_bool f = true) by (destruct f; try reflexivity; cbn in H; intuition discriminate).
      rewrite E. eexists. split; [reflexivity|]. cbn. rewrite app_nil_r. repeat split. destruct (bfield_eq_dec f f); congruence.
    - assert (E : rw_flt f = true) by (destruct f; try reflexivity; cbn in H; intuition discriminate).
      rewrite E. eexists. split; [reflexivity|]. cbn. rewrite app_nil_r. repeat split. destruct (ffield_eq_dec f f); congruence.
    - assert (E : rw_ints f = true) by (destruct f; try reflexivity; cbn in H; intuition discriminate).
      rewrite E. eexists. split; [reflexivity|]. cbn [stored]. repeat split; [|cbn; apply app_nil_r].
      intros k. unfold elemN. cbn. destruct (nfield_eq_dec f f); [|congruence]. unfold asize. cbn [arows acols tab]. rewrite Z.mul_1_r.
      destruct ((0 <=? k) && (k <? Z.of_nat n)) eqn:B; [|reflexivity].
      apply andb_prop in B. rewrite Z.leb_le, Z.ltb_lt in B. apply znth_tab. lia.
    - assert (E : rw_arr f = true) by (destruct f; try reflexivity; cbn in H; intuition discriminate).
      rewrite E. assert (V : is_vector f && negb (c =? 1)%nat = false).
      { destruct (is_vector f) eqn:V; [|reflexivity]. rewrite C; [reflexivity|]. destruct f; try discriminate V; try discriminate E; cbn; tauto. }
      rewrite V. eexists. split; [reflexivity|]. cbn [stored]. repeat split; [| | |cbn; apply app_nil_r].
      + cbn. destruct (afield_eq_dec f f); [reflexivity|congruence].
      + cbn. destruct (afield_eq_dec f f); [reflexivity|congruence].
      + intros j k Hj Hk. unfold elem2. cbn. destruct (afield_eq_dec f f); [|congruence].
        destruct (tabm_is (Z.of_nat r) (Z.of_nat c) g ltac:(lia) ltac:(lia)) as (_ & _ & R1 & R2 & _ & R3). rewrite R1, R2.
        replace ((0 <=? j) && (j <? Z.of_nat r) && (0 <=? k) && (k <? Z.of_nat c)) with true.
        2: { symmetry. rewrite !andb_true_iff, !Z.leb_le, !Z.ltb_lt. lia. }
        apply R3; lia. }
  destruct G as (w' & E & ST & F1 & F2 & F3). exists w'. repeat split; auto.
  intros y Hy. apply (changes_only version c); [intros ->; discriminate T|now left|].
  destruct c; try discriminate T; cbn in T |- *; injection T as <-; intros [G|[]]; congruence.
Qed.

End Thms.

(** ** Cases *)
Section Cases.
Variable S : Scalar.
Definition bx : world S := desk S (obj_new S) (two_files S (bfile_of S (bex S)) (wex S false false)) [].
(** Read a wout file and run; then other calls, two of which throw. *)
Definition first_calls : list (call S) :=
  [New; ReadWout "wout.nc" false; PutInt I_mboz 2; PutInt I_nboz 1; PutInts N_compute_surfs 1 (fun _ => 0); PutInt I_verbose 0; Run].
Definition further_calls : list (call S) :=
  [PutInt I_mboz 5; PutInt I_mnboz 3; Write "out.nc"; ReadWout "none.nc" true; ReadWout "wout.nc" false; PutArr A_bmnc_b 1 1 (fun _ _ => fofZ S 0)].
Fixpoint after version (l : list (call S)) (w : world S) : option (world S) :=
  match l with
  | [] => Some w
  | c :: l => match exec version c w with IOk _ w' => after version l w' | IThrow _ w' => after version l w' | _ => None end
  end.
Lemma after_performs version l : forall w w', after version l w = Some w' -> performs version l w w'.
Proof.
  induction l as [|c l IH]; intros w w' H; cbn in H; [injection H as <-; constructor|].
  destruct (exec version c w) as [[] w1|m w1|y|w1] eqn:E; try discriminate H; [eapply pf_ok|eapply pf_exn]; eauto.
Qed.
Definition there {A} (o : option A) (P : A -> Prop) : Prop := match o with Some x => P x | None => False end.
Theorem kept_case : exists w1 w2, performs "0.0.8" first_calls bx w1 /\ performs "0.0.8" further_calls w1 w2 /\
  forallb (fun c => negb (brings_results c)) further_calls = true /\
  oI (wO w1) I_mnboz = Some 5 /\ arows (oA (wO w1) A_bmnc_b) = 5 /\ oI (wO w2) I_mboz <> oI (wO w1) I_mboz.
Proof.
  assert (H : there (after "0.0.8" first_calls bx) (fun w1 => there (after "0.0.8" further_calls w1) (fun w2 =>
    oI (wO w1) I_mnboz = Some 5 /\ arows (oA (wO w1) A_bmnc_b) = 5 /\ oI (wO w2) I_mboz = Some 12 /\ oI (wO w1) I_mboz = Some 2))).
  { vm_compute. repeat split. }
  destruct (after "0.0.8" first_calls bx) as [w1|] eqn:E1; [|contradiction]. cbn [there] in H.
  destruct (after "0.0.8" further_calls w1) as [w2|] eqn:E2; [|contradiction]. cbn [there] in H.
  destruct H as (H1 & H2 & H3 & H4). exists w1, w2. repeat split; auto using after_performs. rewrite H3, H4. discriminate.
Qed.
(** The profiles Boozer_G and Boozer_I are not those of the file that was read. *)
Theorem profiles_refuted : exists version (w w1 : world S) n, wO w = obj_new S /\ open_ok w /\ lucky S w /\
  bfile S (bfile_of S (bex S)) (bex S) /\ bsane S (bex S) /\ bcomplete S (bfile_of S (bex S)) (bex S) /\
  wFS w "b.nc" = Some (Whole (bfile_of S (bex S))) /\ exec version (ReadBoozmn "b.nc") w = IOk tt w1 /\
  oI (wO w1) I_ns_b = Some n /\ 0 < n /\ elem (wO w1) A_Boozer_G 0 = None /\ elem (wO w1) A_Boozer_I 0 = None.
Proof.
  destruct (okd_ex S (exec "" (ReadBoozmn "b.nc") bx) (fun w1 => oI (wO w1) I_ns_b = Some (b_nsurf S (bex S)) /\
     elem (wO w1) A_Boozer_G 0 = None /\ elem (wO w1) A_Boozer_I 0 = None)) as (w1 & E1 & H1 & H2 & H3); [vm_compute; repeat split|].
  exists ""%string, bx, w1, (b_nsurf S (bex S)). destruct (bfile_of_ok S (bex S) (bex_sane S)) as (B1 & B2 & B3).
  split; [reflexivity|]. split; [apply desk_open|]. split; [reflexivity|]. split; [exact B1|]. split; [apply bex_sane|]. split; [exact B2|].
  split; [reflexivity|]. split; [exact E1|]. split; [exact H1|]. split; [reflexivity|]. split; assumption.
Qed.
Theorem assigned_case :
  (convertible (@PutInt S I_mboz 17) /\ In (MI I_mboz) input_members) /\
  (convertible (@PutArr S A_iota 3 1 (fun j _ => fofZ S j)) /\ In (MA A_iota) input_members) /\
  (convertible (@PutArr S A_rmnc 3 2 (fun j k => fofZ S (j + k))) /\ In (MA A_rmnc) input_members) /\
  ~ convertible (@PutInt S I_mboz 2147483648) /\ ~ convertible (@PutArr S A_iota 3 2 (fun j _ => fofZ S j)).
Proof.
  split; [split; [cbn; lia|inl]|]. split; [split; [intros _; reflexivity|inl]|].
  split; [split; [cbn; intros H; intuition discriminate|inl]|].
  split; [cbn; lia|]. cbn. intros H. specialize (H (or_intror (or_introl eq_refl))). discriminate H.
Qed.
End Cases.

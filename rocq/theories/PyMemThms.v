(** How long arrays obtained from attributes can be used, for all calls. *)
From Coq Require Import ZArith List String Bool Lia.
From Verif Require Import Scalar Prog Model Wp Func Step Spec FuncExt RunThms Vmec Nc NcModel Py PyView PyViewProof PyViewThms PyMem PyMemProof Frame FrameThms.
Import ListNotations.
Local Open Scope Z_scope.
Local Arguments member_eq_dec : simpl never.

Ltac go := repeat first
  [ progress cbn beta
  | lazymatch goal with
    | |- forall _, _ => intro
    | |- True => exact I
    | |- cost (Ret _) _ => exact I
    | |- cost (bind _ _) none => apply cost_seq
    | |- cost (for_ _ _ _ _) none => apply cost_for
    | |- cost (match ?x with _ => _ end) _ => destruct x
    | |- cost (geti _) _ => cbn | |- cost (getb _) _ => cbn | |- cost (getf _) _ => cbn
    | |- cost (getn _ _) _ => cbn | |- cost (getv _ _) _ => cbn | |- cost (sizen _) _ => cbn
    | |- cost (getarr _) _ => cbn
    | |- cost (seti _ _) _ => exact I | |- cost (setb _ _) _ => exact I | |- cost (setf _ _) _ => exact I
    | |- cost (out _ _ _) _ => exact I
    | |- cost (iadd _ _) _ => apply c_int | |- cost (isub _ _) _ => apply c_int | |- cost (idiv _ _) _ => apply c_idiv
    | |- cost (int_ _) _ => apply c_int
    | |- cost (elems _ _) _ => unfold elems | |- cost (elems_n _ _) _ => unfold elems_n
    | |- cost (neg_arr _ _) _ => unfold neg_arr
    | |- cost (vset _ _ _) _ => apply c_vset | |- cost (resize _ _ _) _ => apply c_resize
    | |- cost (vget _ _) _ => apply c_vget | |- cost (zeros _ _ _) _ => apply c_zeros
    end ].
Section Still.
Context {S : Scalar}.
Notation obj := (obj S).
Notation prog := (prog S).
Notation io := (io S).
Notation world := (world S).

Lemma still_bind {A B} (p : io A) (k : A -> io B) : still p -> (forall a, still (k a)) -> still (ibind p k).
Proof.
  intros H K w m. unfold ibind. specialize (H w m). destruct (p w) as [a w'|e w'|y|w']; auto.
  specialize (K a w' m). destruct (k a w'); auto; congruence.
Qed.
Lemma still_quiet L {A} (p : io A) : (forall f, ~ In (MN f) L) -> (forall f, ~ In (MA f) L) -> quiet L p -> still p.
Proof.
  intros HN HA Q w m. specialize (Q w). destruct (p w) as [a w'|e w'|y|w']; auto; destruct m as [f|f]; cbn;
    [rewrite (Q (MA f) (HA f))|rewrite (Q (MN f) (HN f))|rewrite (Q (MA f) (HA f))|rewrite (Q (MN f) (HN f))]; reflexivity.
Qed.
Lemma still_nil {A} (p : io A) : quiet [] p -> still p.
Proof. apply still_quiet; intros f H; exact H. Qed.
Lemma still_lift {A} (p : prog A) : cost p none -> still (lift p).
Proof.
  intros H w m. assert (C : chg p (wO w) m = 0%nat) by (pose proof (cost_chg p (wO w) none m H) as X; unfold none in X; lia).
  unfold lift. destruct (run p (wO w)) as [a o' ev|e o' ev|y] eqn:E; auto; cbn;
    apply (chg_none p m _ _ (mkStore (fun _ => 0) 0) C); rewrite E; reflexivity.
Qed.
Lemma still_try (p : io unit) : still p -> still (itry p).
Proof. intros H w m. specialize (H w m). unfold itry. destruct (p w); auto. Qed.
Lemma still_rget {T} conv h x (buf : list (option T)) store : (forall l, still (store l)) -> still (rget S conv h x buf store).
Proof.
  intros H. unfold rget. apply still_bind; [apply still_nil, quiet_inq_varid|]. intros c. apply still_bind; [apply still_nil, quiet_rchk|]. intros _.
  apply still_bind; [apply still_nil; destruct (_ =? _)%nat; [apply quiet_ub|apply quiet_ret]|]. intros _.
  apply still_bind; [apply still_nil, quiet_get|]. intros c'. apply still_bind; [apply still_nil, quiet_rchk|]. intros [e l].
  apply still_bind; [apply H|]. intros _. apply still_nil. destruct e; [apply quiet_rerr|apply quiet_ret].
Qed.
Lemma still_get_int h x f : still (get_int S h x f).
Proof. apply (still_quiet [MI f]); [intros g [H|[]]; discriminate|intros g [H|[]]; discriminate|]. apply quiet_get_int. now left. Qed.
Lemma still_get_flt h x f : still (get_flt S h x f).
Proof. apply (still_quiet [MF f]); [intros g [H|[]]; discriminate|intros g [H|[]]; discriminate|]. apply quiet_get_flt. now left. Qed.
Lemma still_get_ints h x f : still (get_ints S h x f).
Proof.
  unfold get_ints. apply still_bind; [apply still_nil, quiet_obj|]. intros o. apply still_bind; [|intros; apply still_nil, quiet_ret].
  apply still_rget. intros l w m. cbn. destruct m as [g|g]; cbn; auto. destruct (nfield_eq_dec g f) as [->|]; reflexivity.
Qed.
Lemma still_get_arr h x f : still (get_arr S h x f).
Proof.
  unfold get_arr. apply still_bind; [apply still_nil, quiet_obj|]. intros o. apply still_bind; [|intros; apply still_nil, quiet_ret].
  apply still_rget. intros l w m. cbn. destruct m as [g|g]; cbn; auto. destruct (afield_eq_dec g f) as [->|]; reflexivity.
Qed.
Lemma still_write version x : still (write_boozmn S version x).
Proof.
  unfold write_boozmn.
  repeat lazymatch goal with
  | |- still (ibind _ _) => apply still_bind; [|intros]
  | |- still (let _ := _ in _) => cbv zeta
  | |- still (lift (putv _ _ _)) => apply still_lift; exact I
  | |- still (match ?x with pair _ _ => _ end) => destruct x
  | |- still (if _ =? _ then _ else _) => destruct (_ =? _)
  | |- still (if ?b then _ else _) => destruct b
  | |- still (lift _) => apply still_lift; solve [go]
  | |- still (chatter _ _) => apply still_lift; solve [go]
  | |- still (new_vec _ _) => apply still_lift; solve [go]
  | |- still (zero_vec _ _) => apply still_lift; solve [go]
  | |- _ => apply still_nil; first [apply quiet_put | apply quiet_put_string | apply quiet_put_ints | apply quiet_put_arr | apply quiet_put_mat
      | apply quiet_put_local_mat | apply quiet_wdim | apply quiet_new_writer | apply quiet_wac | apply quiet_prepend | apply quiet_ret]
  end.
Qed.

(** ** Bounds for steps *)
Definition dlimit {A} (d : steps S A) (l : list member) : Prop := forall w m, (chgs d w m <= times l m)%nat.
Lemma d_bind {A B} (p : steps S A) (k : A -> steps S B) l l' : dlimit p l -> (forall a, dlimit (k a) l') -> dlimit (DBind p k) (l ++ l').
Proof.
  intros H K w m. cbn. rewrite times_app. specialize (H w m). destruct (perform p w); try lia. specialize (K a w0 m). lia.
Qed.
Lemma d_lift {A} (p : prog A) l : limit S p l -> dlimit (DLift p) l.
Proof. intros H w m. apply H. Qed.
Lemma d_lib {A} (p : io A) : dlimit (DLib p) [].
Proof. intros w m. cbn. lia. Qed.
Lemma d_none {A} (p : prog A) : cost p none -> dlimit (DLift p) [].
Proof. intros H. apply d_lift, limit_cost, H. Qed.
Lemma d_le {A} (p : steps S A) l l' : dlimit p l -> (forall m, (times l m <= times l' m)%nat) -> dlimit p l'.
Proof. intros H L w m. specialize (H w m). specialize (L m). lia. Qed.
End Still.

Section Readers.
Variable S : Scalar.
Notation obj := (obj S).
Notation prog := (prog S).
Notation io := (io S).
Notation world := (world S).
Lemma d_ints_limit f n : dlimit (d_ints S f n) [inr f].
Proof.
  unfold d_ints. apply (d_bind _ _ []); [apply d_lib|intros o]. apply (d_bind _ _ []); [apply d_none; go|intros a]. apply d_lift, limit_one.
  cbn. split; [|exact I]. unfold one. destruct (member_eq_dec _ _); [lia|congruence].
Qed.
Lemma gives_size_for {T} lo hi (a : array T) (body : Z -> array T -> prog (array T)) :
  (forall i s, gives S (body i s) (fun b => asize b = asize s)) -> gives S (for_ lo hi a body) (fun b => asize b = asize a).
Proof. intros H. apply gives_for; auto. intros i s <-. apply H. Qed.
Lemma gives_neg a : gives S (neg_arr S a) (fun b => asize b = asize a).
Proof.
  unfold neg_arr. eapply gives_bind; [|intros b Hb; apply gives_ret; exact Hb].
  apply gives_for; [reflexivity|]. intros i s Hs. eapply gives_bind; [apply gives_any|]. intros x _. now apply gives_vset.
Qed.
Lemma d_neg_limit f : dlimit (d_neg S f) [].
Proof.
  intros w m. pose proof (in_place S f (neg_arr S)) as X.
  assert (L : limit S (bind (getarr f) (fun a => bind (neg_arr S a) (setarr f))) []) by (apply X; intros a; [go|apply gives_neg]).
  specialize (L (wO w) m). cbn in L. rewrite chg_bind in L. unfold d_neg. cbn. unfold lift. cbn.
  destruct (run (neg_arr S (oA (wO w) f)) (wO w)) as [a o' ev|e o' ev|y]; cbn; cbn in L; lia.
Qed.
Lemma d_surfs_limit n : dlimit (DBind (DLib (theobj S)) (fun o => DBind (DLift (for_ 0 n (oN o N_compute_surfs) (fun j a =>
            bind (vget a j) (fun x => bind (isub x 2) (fun y => vset a j y))))) (fun cs => DLift (setn N_compute_surfs cs)))) [].
Proof.
  intros w m. cbn. set (p := for_ _ _ _ _).
  assert (C : forall x, chg p (wO w) x = 0%nat) by (intros x; pose proof (cost_chg p (wO w) none x) as X; unfold none in X; enough (cost p (fun _ => 0%nat)) by (specialize (X H); lia); unfold p; change (fun _ : member => 0%nat) with none; go).
  assert (G : gives S p (fun b => asize b = asize (oN (wO w) N_compute_surfs))).
  { unfold p. apply gives_size_for. intros i s. eapply gives_bind; [apply gives_any|intros x _]. eapply gives_bind; [apply gives_any|intros y _]. now apply gives_vset. }
  rewrite C. specialize (G (wO w)). unfold lift. destruct (run p (wO w)) as [a o' ev|e o' ev|y] eqn:E; cbn; try lia.
  destruct (chg_none p (inr N_compute_surfs) (wO w) o' (mkStore (fun _ => 0) 0) (C _)) as (X & _); [now rewrite E|]. cbn in X.
  rewrite G, X, Z.eqb_refl. cbn. lia.
Qed.
Ltac dl := first
  [ apply d_ints_limit | apply d_neg_limit | apply d_surfs_limit
  | lazymatch goal with
    | |- dlimit (DLib _) _ => apply d_lib
    | |- dlimit (d_arr _ _ _ _) _ => apply d_lift, l_resize
    | |- dlimit (d_say _ _) _ => apply d_none; solve [go]
    | |- dlimit (d_vec _ _) _ => apply d_none; solve [go]
    | |- dlimit (d_mat _ _ _) _ => apply d_none; solve [go]
    | |- dlimit (DLift (fill_vec _ _ _ _)) _ => apply d_lift, l_fill; intros; go
    | |- dlimit (DLift (init_from_vmec _ _)) _ => apply d_lift, l_vmec
    | |- dlimit (DLift _) _ => apply d_none; solve [go]
    | |- dlimit (d_get_vec _ _ _ _) _ => apply (d_bind _ _ [] []); [|intros]
    | |- dlimit (d_get_mat _ _ _ _ _) _ => apply (d_bind _ _ [] []); [|intros]
    | |- dlimit (match ?x with pair _ _ => _ end) _ => destruct x
    | |- dlimit (DBind (if _ then _ else _) _) _ => idtac
    | |- dlimit (DBind _ _) _ => eapply d_bind; [|intros]
    end ].
Ltac le := let m := fresh in intros m; destruct m as [[]|[]]; vm_compute; lia.
Ltac dby := eapply d_le; [repeat dl|le].
Ltac dif L := eapply d_bind with (l := L);
  [lazymatch goal with |- dlimit (if ?c then _ else _) _ => destruct c end; dby|intros].
Definition wout_list : list member := map inr [N_xm; N_xn; N_xm_nyq; N_xn_nyq] ++ vmec_list.
Lemma wout_limit x fl : dlimit (d_read_wout S x fl) wout_list.
Proof.
  unfold d_read_wout. eapply d_le; [repeat dl; dif (@nil member); repeat dl; dif (@nil member); repeat dl|le].
Qed.
Definition asym_list : list member := map inl [A_bmns_b; A_rmns_b; A_zmnc_b; A_numnc_b; A_gmns_b].
Definition boozmn_list : list member := map inr [N_xm_b; N_xn_b; N_compute_surfs] ++ map inl
  [A_iota; A_Boozer_G_all; A_Boozer_I_all; A_phi; A_phip; A_chi; A_pres; A_bmnc_b; A_rmnc_b; A_zmns_b; A_numns_b; A_gmnc_b; A_s_b] ++ asym_list.
Lemma boozmn_limit x : dlimit (d_read_boozmn S x) boozmn_list.
Proof.
  unfold d_read_boozmn. eapply d_le; [repeat dl; dif asym_list; repeat dl|le].
Qed.
Lemma wout_once m : (times wout_list m <= 1)%nat. Proof. revert m. le. Qed.
Lemma boozmn_once m : (times boozmn_list m <= 1)%nat. Proof. revert m. le. Qed.

(** ** The steps are those of NcModel *)
Lemma ibind_ext {A B} (p p' : io A) (k k' : A -> io B) w : (forall w, p w = p' w) -> (forall a w, k a w = k' a w) -> ibind p k w = ibind p' k' w.
Proof. intros H K. unfold ibind. rewrite H. destruct (p' w); auto. Qed.
Lemma ibind_assoc {A B C} (p : io A) (k : A -> io B) (h : B -> io C) w : ibind (ibind p k) h w = ibind p (fun a => ibind (k a) h) w.
Proof. unfold ibind. destruct (p w); auto. Qed.
Ltac same_ := repeat lazymatch goal with
  | |- ibind (ibind _ _) _ _ = ibind (lift _) _ _ => rewrite ibind_assoc
  | |- ibind (ibind _ _) _ _ = ibind (theobj _) _ _ => rewrite ibind_assoc
  | |- _ = (match ?x with pair _ _ => _ end) _ => destruct x
  | |- _ = (if ?x then _ else _) _ => destruct x; cbn [perform]
  | |- ibind _ _ _ = ibind _ _ _ => apply ibind_ext; [intros ?|intros ? ?]
  | |- _ => reflexivity
  end.
Lemma read_wout_steps x fl w : perform (d_read_wout S x fl) w = read_wout S x fl w.
Proof.
  unfold d_read_wout, read_wout, d_say, d_get_vec, d_get_mat, d_vec, d_mat. cbn [perform].
  same_.
Qed.
Lemma read_boozmn_steps x w : perform (d_read_boozmn S x) w = read_boozmn S x w.
Proof.
  unfold d_read_boozmn, read_boozmn, d_say, d_vec, d_neg. cbn [perform]. same_.
Qed.
Variable version : string.
Lemma exec_steps_ok (c : call S) w : perform (exec_steps S version c) w = exec version c w.
Proof.
  destruct c; unfold exec_steps, exec.
  - reflexivity.
  - destruct (rw_int f); [destruct (in_int v)|]; reflexivity.
  - destruct (rw_bool f); reflexivity.
  - destruct (rw_flt f); reflexivity.
  - destruct (rw_ints f); reflexivity.
  - destruct (rw_arr f); [destruct (_ && _)|]; reflexivity.
  - apply read_wout_steps.
  - reflexivity.
  - reflexivity.
  - reflexivity.
  - apply read_boozmn_steps.
  - reflexivity.
Qed.
Lemma exec_once (c : call S) w m : (chgs (exec_steps S version c) w m <= 1)%nat.
Proof.
  assert (O : forall (p : prog unit), cost p once -> (chg p (wO w) m <= 1)%nat) by (intros p H; exact (cost_chg p (wO w) once m H)).
  destruct c; unfold exec_steps.
  - cbn; lia.
  - destruct (rw_int f); [destruct (in_int v)|]; cbn; lia.
  - destruct (rw_bool f); cbn; lia.
  - destruct (rw_flt f); cbn; lia.
  - destruct (rw_ints f); [|cbn; lia]. apply O. cbn. split; [apply le_n|exact I].
  - destruct (rw_arr f); [|cbn; lia]. destruct (_ && _); [cbn; lia|]. apply O. cbn. split; [apply le_n|exact I].
  - etransitivity; [apply wout_limit|apply wout_once].
  - etransitivity; [apply l_vmec|apply vmec_once].
  - apply O, c_bx_run.
  - cbn; lia.
  - etransitivity; [apply boozmn_limit|apply boozmn_once].
  - cbn; lia.
Qed.
Ltac pr := repeat first
  [ progress (intros) | progress cbn [proper] | split | exact I
  | lazymatch goal with
    | |- proper (d_ints _ _ _) => unfold d_ints
    | |- proper (d_arr _ _ _ _) => exact I
    | |- proper (d_say _ _) => exact I
    | |- proper (d_vec _ _) => exact I
    | |- proper (d_mat _ _ _) => exact I
    | |- proper (d_neg _ _) => unfold d_neg
    | |- proper (d_get_vec _ _ _ _) => unfold d_get_vec
    | |- proper (d_get_mat _ _ _ _ _) => unfold d_get_mat
    | |- proper (if ?c then _ else _) => destruct c
    | |- proper (match ?x with pair _ _ => _ end) => destruct x
    | |- still (get_int _ _ _ _) => apply still_get_int
    | |- still (get_flt _ _ _ _) => apply still_get_flt
    | |- still (get_ints _ _ _ _) => apply still_get_ints
    | |- still (get_arr _ _ _ _) => apply still_get_arr
    | |- still (itry _) => apply still_try
    | |- still _ => apply still_nil; first [apply quiet_obj | apply quiet_reader | apply quiet_get_local_int | apply quiet_get_local | apply quiet_val | apply quiet_getdim
        | apply quiet_rclose | apply quiet_ret | apply quiet_throw]
    end ].
Lemma exec_proper (c : call S) : c <> New -> proper (exec_steps S version c).
Proof.
  intros N. destruct c; try contradiction; unfold exec_steps.
  - pr.
  - pr.
  - pr.
  - pr.
  - pr.
  - unfold d_read_wout. pr.
  - exact I.
  - exact I.
  - apply still_write.
  - unfold d_read_boozmn. pr.
  - cbn. apply still_nil. intros w. apply same_refl.
Qed.
Lemma call_alive (c : call S) w w1 b m : c <> New -> fits b -> exec version c w = IOk tt w1 \/ (exists e, exec version c w = IThrow e w1) ->
  (blk (track_all (exec_steps S version c) w b) m = blk b m <-> size (wO w1) m = size (wO w) m).
Proof.
  intros N Hb E. apply chgs_once; auto; [now apply exec_proper|apply exec_once|]. rewrite exec_steps_ok. destruct E as [->|(e & ->)]; reflexivity.
Qed.
Lemma session_next l os (w : world) b w' b' m : session version l os w b w' b' -> fits b -> fits b' /\ (blk b' m = blk b m \/ blkNext b <= blk b' m).
Proof.
  induction 1 as [w b|c l os w b w1 w2 b2 N E Hs IH]; intros Hf; [auto|].
  destruct (track_all_fits (exec_steps S version c) w b Hf) as (F1 & N1). destruct (IH F1) as (F2 & X). split; auto.
  pose proof (track_all_new (exec_steps S version c) m w b Hf). lia.
Qed.
Theorem session_alive l os (w : world) b w' b' m : session version l os w b w' b' -> fits b ->
  (blk b' m = blk b m <-> Forall (fun q => size q m = size (wO w) m) os).
Proof.
  induction 1 as [w b|c l os w b w1 w2 b2 N E Hs IH]; intros Hf; [split; auto|].
  pose proof (call_alive c w w1 b m N Hf E) as T.
  destruct (track_all_fits (exec_steps S version c) w b Hf) as (Hf1 & N1). specialize (IH Hf1). split.
  - intros X. assert (E1 : blk (track_all (exec_steps S version c) w b) m = blk b m).
    { destruct (track_all_new (exec_steps S version c) m w b Hf) as [Y|Y]; auto. destruct (session_next _ _ _ _ _ _ m Hs Hf1) as (_ & Z).
      specialize (Hf m). lia. }
    rewrite E1 in IH. apply T in E1. constructor; auto. rewrite <- E1. now apply IH.
  - intros H. inversion H as [|x y H1 H2]; subst. apply T in H1 as E1. rewrite E1 in IH. apply IH. rewrite H1. exact H2.
Qed.
Theorem lifetime_all l os (w : world) b w' b' f k j : session version l os w b w' b' -> fits b -> wf_obj (wO w') ->
  0 <= k < arows (oA (wO w) f) -> 0 <= j < acols (oA (wO w) f) ->
  (Forall (fun q => asize (oA q f) = asize (oA (wO w) f)) os -> arows (oA (wO w') f) = arows (oA (wO w) f) -> acols (oA (wO w') f) = acols (oA (wO w) f) ->
     exists x, elem2 (wO w') f k j = Some x /\ look (get_view (wO w) b (inl f)) (wO w') b' f k j = Value x) /\
  (Exists (fun q => asize (oA q f) <> asize (oA (wO w) f)) os -> look (get_view (wO w) b (inl f)) (wO w') b' f k j = Freed).
Proof.
  intros C Hf W Hk Hj. pose proof (session_alive l os w b w' b' (inl f) C Hf) as A. split.
  - intros H Er Ec. apply look_alive; auto. now apply A.
  - intros H. apply look_dead; auto. intros E. apply A in E. rewrite Forall_forall in E. apply Exists_exists in H. destruct H as (q & Hq & N).
    apply N. apply (E q Hq).
Qed.
(** Arrays of ints *)
Lemma wf_row {T} (a : array T) i : wf_arr a -> acols a = 1 -> 0 <= i < arows a -> exists x, znth (adata a) i = Some x.
Proof. intros W C Hi. destruct (wf_cell a i 0 W Hi) as (x & E); [lia|]. exists x. rewrite <- E. f_equal. lia. Qed.
Theorem lifetime_ints l os (w : world) b w' b' f k : session version l os w b w' b' -> fits b -> wf_obj (wO w) -> wf_obj (wO w') ->
  0 <= k < arows (oN (wO w) f) ->
  (Forall (fun q => asize (oN q f) = asize (oN (wO w) f)) os ->
     exists x, elemN (wO w') f k = Some x /\ look_n (get_view (wO w) b (inr f)) (wO w') b' f k = Value x) /\
  (Exists (fun q => asize (oN q f) <> asize (oN (wO w) f)) os -> look_n (get_view (wO w) b (inr f)) (wO w') b' f k = Freed).
Proof.
  intros C Hf W W' Hk. pose proof (session_alive l os w b w' b' (inr f) C Hf) as A.
  destruct W as (WN & _). destruct W' as (WN' & _). destruct (WN f) as (W1 & C1). destruct (WN' f) as (W2 & C2).
  unfold look_n, look_in. cbn [get_view vwRows vwCols vwBlk]. rewrite C1, inside_true by lia. replace (k + 0 * arows (oN (wO w) f)) with k by lia.
  split.
  - intros H. assert (E : asize (oN (wO w') f) = asize (oN (wO w) f)).
    { clear -C H. induction C; auto. inversion H as [|x y G1 G2]; subst. cbn in G1. rewrite <- G1. apply IHC. rewrite G1. exact G2. }
    rewrite (proj2 A H), Z.eqb_refl. unfold asize in E. rewrite C1, C2 in E.
    destruct (wf_row (oN (wO w') f) k W2 C2) as (x & Ex); [lia|]. rewrite Ex. exists x. split; auto. unfold elemN, asize. rewrite C2, Ex.
    destruct (Z.leb_spec 0 k); [|lia]. destruct (Z.ltb_spec k (arows (oN (wO w') f) * 1)); [reflexivity|lia].
  - intros H. destruct (Z.eqb_spec (blk b' (inr f)) (blk b (inr f))) as [E|E]; auto. exfalso. apply A in E.
    rewrite Forall_forall in E. apply Exists_exists in H. destruct H as (q & Hq & N). apply N. apply (E q Hq).
Qed.
End Readers.

(** ** A case: an array obtained after read_boozmn *)
Section Case.
Variable S : Scalar.
Fixpoint replay version (l : list (call S)) (w : world S) (b : store) : option (list (obj S) * world S * store) :=
  match l with
  | [] => Some ([], w, b)
  | c :: l =>
      match exec version c w with
      | IOk _ w1 | IThrow _ w1 =>
          match replay version l w1 (track_all (exec_steps S version c) w b) with Some (os, w2, b2) => Some (wO w1 :: os, w2, b2) | None => None end
      | _ => None
      end
  end.
Lemma replay_session version l : forall w b os w' b', ~ In (@New S) l -> replay version l w b = Some (os, w', b') -> session version l os w b w' b'.
Proof.
  induction l as [|c l IH]; intros w b os w' b' N H; cbn in H; [injection H as <- <- <-; constructor|].
  destruct (exec version c w) as [[] w1|m w1|y|w1] eqn:E; try discriminate H;
    destruct (replay version l w1 _) as [[[os1 w2] b2]|] eqn:R; try discriminate H; injection H as <- <- <-;
    (apply se_cons; [intros ->; apply N; now left|eauto|apply IH; [intros X; apply N; now right|exact R]]).
Qed.
(** The second call throws. *)
Definition same_file : list (call S) := [ReadBoozmn "b.nc"; ReadWout "none.nc" true; Write "out.nc"].
Definition other_file : list (call S) := [ReadWout "wout.nc" false; PutInt I_mboz 2; PutInt I_nboz 1; PutInts N_compute_surfs 1 (fun _ => 0); PutInt I_verbose 0; Run].
Definition opened : world S := match exec "0.0.8" (ReadBoozmn "b.nc") (bx S) with IOk _ w => w | _ => bx S end.
Definition outcome (l : list (call S)) : list (obj S) * world S * store :=
  match replay "0.0.8" l opened b0 with Some r => r | None => ([], bx S, b0) end.
Lemma opened_ok : exec "0.0.8" (ReadBoozmn "b.nc") (bx S) = IOk tt opened.
Proof.
  unfold opened. destruct (exec "0.0.8" (ReadBoozmn "b.nc") (bx S)) as [[] w|m w|y|w] eqn:E; auto; exfalso.
  all: assert (X : match exec "0.0.8" (ReadBoozmn "b.nc") (bx S) with IOk _ _ => True | _ => False end) by (vm_compute; exact I); rewrite E in X; exact X.
Qed.
Lemma outcome_ok l : match replay "0.0.8" l opened b0 with Some _ => True | None => False end -> ~ In (@New S) l ->
  session "0.0.8" l (fst (fst (outcome l))) opened b0 (snd (fst (outcome l))) (snd (outcome l)).
Proof.
  intros H N. apply replay_session; auto. unfold outcome. destruct (replay "0.0.8" l opened b0) as [[[os w] b]|]; [reflexivity|contradiction].
Qed.
Ltac wf := constructor; intros f; destruct f; vm_compute; (repeat split; discriminate).
Theorem all_case : exists w1 os2 w2 b2 os3 w3 b3 x, exec "0.0.8" (ReadBoozmn "b.nc") (bx S) = IOk tt w1 /\ fits b0 /\ wf_obj (wO w1) /\
  session "0.0.8" [ReadBoozmn "b.nc"; ReadWout "none.nc" true; Write "out.nc"] os2 w1 b0 w2 b2 /\ wf_obj (wO w2) /\
  look (get_view (wO w1) b0 (inl A_bmnc_b)) (wO w2) b2 A_bmnc_b 0 0 = Value (Some x) /\
  session "0.0.8" [ReadWout "wout.nc" false; PutInt I_mboz 2; PutInt I_nboz 1; PutInts N_compute_surfs 1 (fun _ => 0); PutInt I_verbose 0; Run] os3 w1 b0 w3 b3 /\
  wf_obj (wO w3) /\ look (get_view (wO w1) b0 (inl A_bmnc_b)) (wO w3) b3 A_bmnc_b 0 0 = Freed.
Proof.
  exists opened, (fst (fst (outcome same_file))), (snd (fst (outcome same_file))), (snd (outcome same_file)),
    (fst (fst (outcome other_file))), (snd (fst (outcome other_file))), (snd (outcome other_file)).
  eexists. split; [apply opened_ok|]. split; [apply b0_fits|]. split; [wf|].
  split; [apply outcome_ok; [vm_compute; exact I|unfold same_file; cbn; intuition discriminate]|]. split; [wf|]. split; [vm_compute; reflexivity|].
  split; [apply outcome_ok; [vm_compute; exact I|unfold other_file; cbn; intuition discriminate]|]. split; [wf|]. vm_compute; reflexivity.
Qed.
End Case.

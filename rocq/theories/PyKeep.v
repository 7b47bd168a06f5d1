(** What read_wout, read_boozmn and write_boozmn leave alone, also when they throw. *)
From Coq Require Import ZArith List String Bool Lia.
From Verif Require Import Scalar Prog Model Wp Func Spec FuncExt RunThms Vmec VmecSpec VmecProof VmecRun VmecThms
  Nc NcModel NcSpec NcTri NcVoc PyProof.
Import ListNotations.
Local Open Scope Z_scope.

Section Io.
Context {S : Scalar}.
Notation obj := (obj S).
Notation world := (world S).
Notation io := (io S).
Variable o0 : obj.

Section Gen.
Variables (kI : ifield -> bool) (kN : nfield -> bool).
Notation keeps := (keeps kI kN o0).
Notation still := (still kI kN o0).

Lemma keeps_any {A} (P : A -> Prop) (m : io A) : keeps P m -> keeps any m.
Proof. apply keeps_mono. intros; exact Logic.I. Qed.
Lemma keeps_val {T} (x : option T) : keeps any (val S x).
Proof. apply still_keeps, still_val. Qed.
Lemma keeps_reader x : keeps any (reader S x).
Proof. apply still_keeps, still_reader. Qed.
Lemma keeps_getdim h x : keeps any (getdim S h x).
Proof. apply still_keeps, still_getdim. Qed.
Lemma keeps_rclose h : keeps any (rclose S h).
Proof. apply still_keeps, still_rclose. Qed.
Lemma keeps_lift_any {A} (P : A -> Prop) (p : prog S A) : tame kI kN P p -> keeps any (lift p).
Proof. intros H. apply keeps_lift. eapply tame_any. exact H. Qed.
Lemma tame_geti f : tame kI kN any (@geti S f). Proof. cbn. intros; exact Logic.I. Qed.
Lemma tame_getb f : tame kI kN any (@getb S f). Proof. cbn. intros; exact Logic.I. Qed.
Lemma tame_getn f j : tame kI kN any (@getn S f j). Proof. cbn. intros; exact Logic.I. Qed.
Lemma tame_getv f j : tame kI kN any (@getv S f j). Proof. cbn. intros; exact Logic.I. Qed.
Lemma tame_idiv a b : tame kI kN any (@idiv S a b).
Proof. unfold idiv. destruct (b =? 0); [exact Logic.I|]. apply tame_int. Qed.
Lemma tame_out t l x : tame kI kN any (@out S t l x). Proof. cbn. exact Logic.I. Qed.
Lemma tame_elems_n f : tame kI kN any (elems_n S f).
Proof.
  unfold elems_n. apply tame_bind. cbn. intros n. apply tame_for; [exact Logic.I|]. intros j l _. cbn. intros; exact Logic.I.
Qed.
Lemma tame_elems {T} (a : array T) : tame kI kN any (elems S a).
Proof.
  unfold elems. apply tame_for; [exact Logic.I|]. intros j l _. apply tame_bind.
  eapply tame_mono; [|apply tame_vget]. cbn. intros; exact Logic.I.
Qed.
Lemma tame_jlist (c : array Z) n : wf_arr c -> acols c = 1 ->
  tame kI kN (fun a => wf_arr a /\ arows a = arows c /\ acols a = 1)
    (for_ 0 n c (fun j a => bind (@vget S Z a j) (fun x => bind (isub x 2) (fun y => vset a j y)))).
Proof.
  intros W C. apply tame_for; [auto|]. intros j a (H1 & H2 & H3). apply tame_bind. eapply tame_mono; [|apply tame_vget]. intros x _.
  apply tame_bind. eapply tame_mono; [|apply tame_int]. intros y _. now apply tame_vset.
Qed.
Lemma tame_neg_member f : tame kI kN (fun b => wf_arr b) (bind (getarr f) (neg_arr S)).
Proof. apply tame_bind. cbn [getarr tame]. intros a Wa. now apply tame_neg. Qed.

End Gen.

Ltac kp1 := first
  [ apply keeps_reader | apply keeps_getdim | apply keeps_rclose | apply keeps_val | apply keeps_local_int | apply keeps_get_flt
  | apply keeps_get_arr | apply keeps_get_vec | apply keeps_get_mat | apply keeps_new_vec | apply keeps_new_mat | apply keeps_local
  | apply keeps_resize_arr | apply keeps_get_int; reflexivity | apply keeps_get_ints; reflexivity | apply keeps_resize_ints; reflexivity
  | apply keeps_lift, tame_geti | apply keeps_lift, tame_getb | apply keeps_lift, tame_getn | apply keeps_lift, tame_getv
  | apply keeps_lift, tame_int | apply keeps_lift, tame_idiv
  | apply keeps_chatter, tame_out ].

Section Wout.
Definition wI (f : ifield) : bool := match f with I_verbose => true | _ => false end.
Definition wN (f : nfield) : bool := match f with N_compute_surfs => true | _ => false end.
Notation keeps := (keeps wI wN o0).

Lemma keeps_seti f v : wI f = false -> keeps any (lift (seti f v)).
Proof. intros H. apply keeps_lift. cbn. split; [exact H|exact Logic.I]. Qed.
Lemma keeps_setb f v : keeps any (lift (setb f v)).
Proof. apply keeps_lift. cbn. exact Logic.I. Qed.
Lemma keepsE_vmec v : keepsE wI wN o0 (lift (init_from_vmec S v)).
Proof.
  intros w ((W & H1 & H2) & Op). unfold pt, lift. destruct (run (init_from_vmec S v) (wO w)) as [a o ev|m o ev|y] eqn:E; try exact Logic.I.
  destruct (throw_state S _ _ _ _ _ E) as (-> & ->). split; [|exact Op]. apply kept_I; [|reflexivity]. split; [|split]; auto.
Qed.
Ltac go := repeat (eapply keepsE_bind; [first [kp1|apply keeps_setb|apply keeps_seti; reflexivity]|intros ? _]; cbv beta).
Theorem read_wout_keeps x fl : keepsE wI wN o0 (read_wout S x fl).
Proof.
  unfold read_wout. go. eapply keepsE_bind.
  { instantiate (1 := any). destruct fl; [|apply keeps_ret; exact Logic.I].
    repeat (eapply keeps_bind; [kp1|intros ? _]; cbv beta). apply keeps_ret. exact Logic.I. }
  intros (((phip & chi) & pres) & phi) _. go. eapply keepsE_bind.
  { instantiate (1 := any). match goal with |- PyProof.keeps _ _ _ _ (if ?b then _ else _) => destruct b end; [|apply keeps_ret; exact Logic.I].
    repeat (eapply keeps_bind; [kp1|intros ? _]; cbv beta). apply keeps_ret. exact Logic.I. }
  intros (((rmns & zmnc) & lmnc) & ((bmns & bsu) & bsv)) _. go. apply keepsE_vmec.
Qed.
End Wout.

Section Boozmn.
Definition bI (f : ifield) : bool := match f with I_verbose => true | _ => false end.
Definition bN (f : nfield) : bool := false.
Notation keeps := (keeps bI bN o0).
Lemma keeps_seti' f v : bI f = false -> keeps any (lift (seti f v)).
Proof. intros H. apply keeps_lift. cbn. split; [exact H|exact Logic.I]. Qed.
Lemma keeps_setb' f v : keeps any (lift (setb f v)).
Proof. apply keeps_lift. cbn. exact Logic.I. Qed.
Lemma keeps_setf' f v : keeps any (lift (setf f v)).
Proof. apply keeps_lift. cbn. exact Logic.I. Qed.
Lemma keeps_neg f : keeps (fun b => wf_arr b) (lift (bind (getarr f) (neg_arr S))).
Proof. apply keeps_lift, tame_neg_member. Qed.
Lemma keeps_setarr f b : wf_arr b -> keeps any (lift (setarr f b)).
Proof. intros H. apply keeps_lift. cbn. split; [exact H|exact Logic.I]. Qed.
Lemma keeps_try' (m : io unit) : keeps any m -> keeps any (itry m).
Proof. apply keeps_try. Qed.
Ltac kb := first [kp1|apply keeps_setb'|apply keeps_setf'|apply keeps_seti'; reflexivity|apply keeps_try, keeps_get_arr
  |apply keeps_lift, tame_fill; intros; apply tame_vget].
Ltac go := repeat (eapply keeps_bind; [kb|intros ? _]; cbv beta).
Theorem read_boozmn_keeps x : keeps any (read_boozmn S x).
Proof.
  unfold read_boozmn. go.
  eapply keeps_bind. { apply keeps_chatter. cbn. intros; exact Logic.I. } intros ? _. cbv beta. go.
  eapply keeps_bind; [apply keeps_obj|]. intros o ((W & _) & _). cbv beta.
  eapply keeps_bind; [apply keeps_lift, (tame_jlist _ _ (oN o N_compute_surfs)); apply W|]. intros cs (W1 & _ & C1). cbv beta.
  eapply keeps_bind. { apply keeps_lift with (P := any). cbn. splits; auto. exact Logic.I. } intros ? _. cbv beta.
  eapply keeps_bind. { apply keeps_chatter. apply tame_bind. eapply tame_mono; [|apply tame_elems_n]. intros l _. apply tame_out. } intros ? _. cbv beta. go.
  eapply keeps_bind; [apply keeps_neg|]. intros p Wp. eapply keeps_bind; [now apply keeps_setarr|]. intros ? _. cbv beta. go.
  eapply keeps_bind.
  { instantiate (1 := any). match goal with |- PyProof.keeps _ _ _ _ (if ?b then _ else _) => destruct b end.
    - go. eapply keeps_bind; [apply keeps_neg|]. intros p' Wp'. eapply keeps_bind; [now apply keeps_setarr|]. intros ? _. cbv beta. apply keeps_get_arr.
    - go. apply keeps_resize_arr. }
  intros ? _. cbv beta. go.
  eapply keeps_bind. { apply keeps_lift, tame_fill. intros j. apply tame_bind. cbn. intros; exact Logic.I. } intros ? _. cbv beta.
  eapply keeps_bind. { apply keeps_chatter. apply tame_bind. apply tame_bind. cbn [getarr tame]. intros b _.
    eapply tame_mono; [|apply tame_elems]. intros l _. apply tame_out. } intros ? _. cbv beta. apply keeps_rclose.
Qed.
End Boozmn.

(** The writer leaves everything in the object alone but phip *)
Section Write.
Variable version : string.
Definition aI (f : ifield) : bool := true.
Definition aN (f : nfield) : bool := true.
Notation keeps := (keeps aI aN o0).
Notation still := (still aI aN o0).
Lemma keeps_wchk {A} (c : code A) : keeps any (wchk S c).
Proof. destruct c; [apply still_keeps, still_throw|apply keeps_ret; exact Logic.I]. Qed.
Lemma keeps_new_writer x : keeps any (new_writer S x).
Proof.
  unfold new_writer. eapply keeps_bind; [apply still_keeps, still_create|]. intros c _. eapply keeps_bind; [apply keeps_wchk|].
  intros h _. apply keeps_ret. exact Logic.I.
Qed.
Lemma keeps_wdim nc x n : keeps any (wdim S nc x n).
Proof. unfold wdim. eapply keeps_bind; [apply still_keeps, still_define|]. intros c _. apply keeps_wchk. Qed.
Lemma keeps_def_var h x ds ty : keeps any (@nc_def_var S h x ds ty).
Proof. apply still_keeps, still_define. Qed.
Lemma keeps_def_dim h x n : keeps any (@nc_def_dim S h x n).
Proof. apply still_keeps, still_define. Qed.
Lemma keeps_att h x y z : keeps any (@nc_put_att_text S h x y z).
Proof. apply still_keeps, still_define. Qed.
Lemma keeps_attribute nc x s u : keeps any (add_attribute S nc x s u).
Proof.
  unfold add_attribute. eapply keeps_bind with (P := any).
  - destruct (_ <? _)%nat; [|apply keeps_ret; exact Logic.I]. eapply keeps_bind; [apply keeps_att|]. intros c _. apply keeps_wchk.
  - intros ? _. destruct (_ <? _)%nat; [|apply keeps_ret; exact Logic.I]. eapply keeps_bind; [apply keeps_att|]. intros c _. apply keeps_wchk.
Qed.
Lemma keeps_put nc ds x ty p a u : keeps any (put S nc ds x ty p a u).
Proof.
  unfold put. eapply keeps_bind; [apply keeps_def_var|]. intros c _. eapply keeps_bind; [apply keeps_wchk|]. intros ? _.
  eapply keeps_bind with (P := any).
  { destruct p as [f|f|f [| |]|f [| |]|y|y|y [| |]|y [| |]|y n]; first [apply keeps_ret; exact Logic.I|apply still_keeps, still_ub]. }
  intros ? _. eapply keeps_bind; [apply keeps_attribute|]. intros ? _. apply keeps_ret. exact Logic.I.
Qed.
Lemma keeps_put_string nc x y z a : keeps any (put_string S nc x y z a).
Proof.
  unfold put_string. eapply keeps_bind; [apply still_keeps, still_dimid|]. intros c _. eapply keeps_bind with (P := any).
  { destruct c; [|apply keeps_ret; exact Logic.I]. eapply keeps_bind; [apply keeps_def_dim|]. intros c _. apply keeps_wchk. }
  intros ? _. eapply keeps_bind; [apply keeps_def_var|]. intros c' _. eapply keeps_bind; [apply keeps_wchk|]. intros ? _.
  eapply keeps_bind; [apply keeps_attribute|]. intros ? _. apply keeps_ret. exact Logic.I.
Qed.
Lemma keeps_put_ints nc ds x f a u : keeps any (put_ints S nc ds x f a u).
Proof. unfold put_ints. eapply keeps_bind; [apply keeps_obj|]. intros o _. apply keeps_put. Qed.
Lemma keeps_put_arr nc ds x f a u : keeps any (put_arr S nc ds x f a u).
Proof. unfold put_arr. eapply keeps_bind; [apply keeps_obj|]. intros o _. apply keeps_put. Qed.
Lemma keeps_put_mat nc x f a u : keeps any (put_mat S nc x f a u).
Proof.
  unfold put_mat. eapply keeps_bind; [apply keeps_obj|]. intros o _. eapply keeps_bind with (P := any); [|intros ? _; apply keeps_put].
  destruct (inside _ _ _ _); [apply keeps_ret; exact Logic.I|apply still_keeps, still_ub].
Qed.
Lemma keeps_put_local_mat nc x b a u : keeps any (put_local_mat S nc x b a u).
Proof.
  unfold put_local_mat. eapply keeps_bind with (P := any); [|intros ? _; apply keeps_put].
  destruct (inside _ _ _ _); [apply keeps_ret; exact Logic.I|apply still_keeps, still_ub].
Qed.
Lemma keeps_prepend f n : keeps any (prepend_zero S f n).
Proof.
  unfold prepend_zero. eapply keeps_bind; [apply keeps_lift, tame_int|]. intros m _.
  eapply keeps_bind; [apply keeps_lift, (tame_resize _ _ empty_vec m 1), wf_empty_vec|]. intros a (W & H1 & H2). apply keeps_lift.
  apply tame_bind. eapply tame_mono; [|apply (tame_vset _ _ a 0 _ _ _ W H1 H2)]. cbv beta. intros b Hb. apply tame_any with (P := fun b => wf_arr b /\ arows b = m /\ acols b = 1).
  apply tame_for; [exact Hb|]. intros j c (G1 & G2 & G3). apply tame_bind. eapply tame_mono; [|apply tame_getv]. intros y _. now apply tame_vset.
Qed.
Lemma keeps_zero_vec n : keeps any (zero_vec S n).
Proof. unfold zero_vec. apply keeps_lift. eapply tame_any. apply tame_zeros. Qed.
Lemma keeps_jlist n : keeps any (lift (bind (resize empty_vec n 1) (fun a =>
   for_ 0 n a (fun j a => bind (@getn S N_compute_surfs j) (fun x => bind (iadd x 2) (fun y => vset a j y)))))).
Proof.
  apply keeps_lift, tame_bind. eapply tame_mono; [|apply (tame_resize _ _ empty_vec n 1), wf_empty_vec]. cbv beta. intros a Ha.
  apply tame_any with (P := fun b => wf_arr b /\ arows b = n /\ acols b = 1).
  apply tame_for; [exact Ha|]. intros j c (G1 & G2 & G3). apply tame_bind. eapply tame_mono; [|apply tame_getn]. intros y _.
  apply tame_bind. eapply tame_mono; [|apply tame_int]. intros z _. now apply tame_vset.
Qed.
Lemma keeps_put_all h env l : keeps any (put_all S h env l).
Proof.
  induction l as [|(x & p) l IH]; cbn [put_all]; [apply keeps_ret; exact Logic.I|].
  eapply keeps_bind; [apply still_keeps, still_put_var|]. intros c _. eapply keeps_bind; [apply keeps_wchk|]. intros ? _. exact IH.
Qed.
Lemma keeps_write_and_close nc env : keeps any (write_and_close S nc env).
Proof.
  unfold write_and_close. eapply keeps_bind; [apply still_keeps, still_enddef|]. intros c _. eapply keeps_bind; [apply keeps_wchk|]. intros ? _.
  eapply keeps_bind; [apply keeps_put_all|]. intros ? _. eapply keeps_bind; [apply still_keeps, still_close|]. intros c' _. apply keeps_wchk.
Qed.
Ltac kw := first [apply keeps_put|apply keeps_put_mat|apply keeps_put_local_mat|apply keeps_put_ints|apply keeps_put_arr|apply keeps_put_string
  |apply keeps_wdim|apply keeps_new_writer|apply keeps_prepend|apply keeps_zero_vec|apply keeps_jlist|kp1
  |apply keeps_lift_any with (P := fun b => wf_arr b), tame_neg_member
  |apply keeps_lift with (P := any); cbn; intros; exact Logic.I].
Ltac go := repeat (eapply keeps_bind; [kw|intros ? _]; cbv beta).
Theorem write_boozmn_keeps x : keeps any (write_boozmn S version x).
Proof.
  unfold write_boozmn. go.
  eapply keeps_bind with (P := any).
  { destruct (_ =? 0); go; apply keeps_ret; exact Logic.I. }
  intros (nc' & pres) _. go. eapply keeps_bind with (P := any).
  { match goal with |- PyProof.keeps _ _ _ _ (if ?b then _ else _) => destruct b end; go; apply keeps_ret; exact Logic.I. }
  intros (nc2 & pm) _. apply keeps_write_and_close.
Qed.
End Write.
End Io.

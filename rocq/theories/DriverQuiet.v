(** What is printed has no influence on anything else. *)
From Coq Require Import ZArith List String Ascii Bool Lia.
From Verif Require Import Scalar Prog Model Vmec Nc NcModel VmecSpec NcSpec NcVoc Driver DriverSpec.
Import ListNotations.
Local Open Scope Z_scope.

Section Quiet.
Variable S : Scalar.
Notation world := (world S).
Notation io := (io S).

Lemma same_refl (w : world) : same_world w w.
Proof. repeat split. Qed.
Lemma same_sym (w w' : world) : same_world w w' -> same_world w' w.
Proof. intros (A & B & C & D & E). repeat split; auto. Qed.
Lemma same_trans (w w' w'' : world) : same_world w w' -> same_world w' w'' -> same_world w w''.
Proof. intros (A & B & C & D & E) (A' & B' & C' & D' & E'). repeat split; congruence. Qed.
Lemma same_add (w : world) e : same_world w (addEv w e).
Proof. repeat split. Qed.
Lemma res_sym {A} (r r' : ires S A) : same_result r r' -> same_result r' r.
Proof. destruct r, r'; cbn; intuition auto using same_sym. Qed.
Lemma res_trans {A} (r r' r'' : ires S A) : same_result r r' -> same_result r' r'' -> same_result r r''.
Proof. destruct r, r', r''; cbn; intuition (subst; eauto using same_trans). Qed.

Definition quiet {A} (m : io A) : Prop := forall w w', same_world w w' -> same_result (m w) (m w').
Ltac same H := let a := fresh in destruct H as (a & ? & ? & ? & ?); repeat match goal with w : Nc.world S |- _ => destruct w end; cbn in *; subst.

Lemma quiet_ret {A} (a : A) : quiet (iret a).
Proof. intros w w' H. cbn. auto. Qed.
Lemma quiet_throw {A} m : quiet (ithrow (A := A) m).
Proof. intros w w' H. cbn. auto. Qed.
Lemma quiet_ub {A} y : quiet (iub (A := A) y).
Proof. intros w w' H. cbn. auto. Qed.
Lemma quiet_bind {A B} (m : io A) (k : A -> io B) : quiet m -> (forall a, quiet (k a)) -> quiet (ibind m k).
Proof.
  intros Hm Hk w w' H. unfold ibind. specialize (Hm w w' H). destruct (m w), (m w'); cbn in Hm; try contradiction; cbn; auto.
  destruct Hm as (-> & Hs). now apply Hk.
Qed.
Lemma quiet_try (m : io unit) : quiet m -> quiet (itry m).
Proof. intros Hm w w' H. unfold itry. specialize (Hm w w' H). destruct (m w), (m w'); cbn in *; intuition auto. Qed.
Lemma quiet_lift {A} (p : prog S A) : quiet (lift p).
Proof.
  intros w w' H. unfold lift. rewrite <- (proj1 H). destruct (run p (wO w)); cbn; auto; split; auto; same H; repeat split.
Qed.
Lemma quiet_say tag zs xs : quiet (say (S := S) tag zs xs).
Proof. intros w w' H. cbn. split; auto. Qed.
Lemma quiet_obj : quiet (theobj S).
Proof. intros w w' H. cbn. split; auto. apply H. Qed.
Lemma quiet_setobj o : quiet (setobj S o).
Proof. intros w w' H. cbn. split; auto. same H. repeat split. Qed.
Lemma quiet_call {A} (f : world -> ires S (code A)) : (forall w w', same_world w w' -> same_result (f w) (f w')) -> quiet (call f).
Proof.
  intros Hf w w' H. unfold call. destruct H as (E1 & E2 & E3 & E4 & E5). rewrite <- E5.
  destruct (wQ w) as [|[] q] eqn:E; [apply Hf; repeat split; congruence|apply Hf; repeat split; auto| |]; cbn; repeat split; auto.
Qed.
Lemma same_handle (w w' : world) h : same_world w w' -> handle w h = handle w' h.
Proof. intros (_ & _ & E & _). unfold handle. now rewrite E. Qed.
Lemma same_contents (w w' : world) h : same_world w w' -> contents w h = contents w' h.
Proof. intros H. unfold contents. now rewrite (same_handle w w' h H). Qed.
Ltac brk := repeat match goal with
  | |- context [match ?x with _ => _ end] => destruct x eqn:?
  end; cbn; auto.
Lemma quiet_open x : quiet (nc_open (S := S) x).
Proof.
  apply quiet_call. intros w w' H. pose proof H as (E1 & E2 & E3 & E4 & E5). rewrite <- E2.
  destruct (wFS w x) as [[f|]|]; cbn; auto. rewrite E4. split; auto. repeat split; cbn; congruence.
Qed.
Lemma quiet_inq h : quiet (nc_inq (S := S) h).
Proof. apply quiet_call. cbn. auto. Qed.
Lemma quiet_enddef h : quiet (nc_enddef (S := S) h).
Proof. apply quiet_call. cbn. auto. Qed.
Lemma quiet_dimid h x : quiet (nc_inq_dimid (S := S) h x).
Proof. apply quiet_call. intros w w' H. rewrite (same_contents w w' h H). brk. Qed.
Lemma quiet_dimlen h x : quiet (nc_inq_dimlen (S := S) h x).
Proof. apply quiet_call. intros w w' H. rewrite (same_contents w w' h H). brk. Qed.
Lemma quiet_varid h x : quiet (nc_inq_varid (S := S) h x).
Proof. apply quiet_call. intros w w' H. rewrite (same_contents w w' h H). brk. Qed.
Lemma quiet_get {T} (conv : ncval S -> option (list (option T) * bool)) h x buf : quiet (nc_get conv h x buf).
Proof. apply quiet_call. intros w w' H. rewrite (same_contents w w' h H). brk. Qed.
Lemma same_drop (w w' : world) h : same_world w w' -> same_world (drop_handle w h) (drop_handle w' h).
Proof. intros (E1 & E2 & E3 & E4 & E5). repeat split; cbn; congruence. Qed.
Lemma same_put (w w' : world) h x : same_world w w' -> same_world (put_handle w h x) (put_handle w' h x).
Proof. intros (E1 & E2 & E3 & E4 & E5). repeat split; cbn; congruence. Qed.
Lemma same_fs (w w' : world) x d : same_world w w' -> same_world (setFS w x d) (setFS w' x d).
Proof. intros (E1 & E2 & E3 & E4 & E5). repeat split; cbn; rewrite ?E2; congruence. Qed.
Lemma quiet_close h : quiet (nc_close (S := S) h).
Proof. apply quiet_call. intros w w' H. rewrite (same_handle w w' h H). brk; split; auto using same_drop, same_fs. Qed.
Lemma quiet_create x : quiet (nc_create (S := S) x).
Proof.
  apply quiet_call. intros w w' H. pose proof (same_fs w w' x Torn H) as (E1 & E2 & E3 & E4 & E5). cbn in *. rewrite E4. split; auto. repeat split; cbn; congruence.
Qed.
Lemma quiet_define {A} h (f : ncfile S -> code (A * ncfile S)) : quiet (define h f).
Proof. apply quiet_call. intros w w' H. rewrite (same_handle w w' h H). brk; split; auto using same_put. Qed.
Lemma quiet_put_var h x get : (forall (w w' : world) n, same_world w w' -> get w n = get w' n) -> quiet (nc_put_var h x get).
Proof.
  intros Hg. apply quiet_call. intros w w' H. rewrite (same_handle w w' h H).
  destruct (handle w' h) as [[f|y f]|]; cbn; auto. destruct (find_var f x); cbn; auto. rewrite (Hg w w') by auto. brk. split; auto using same_put.
Qed.
Lemma same_deref env p (w w' : world) n : same_world w w' -> deref S env p w n = deref S env p w' n.
Proof. intros (E & _). destruct p; cbn; rewrite ?E; reflexivity. Qed.

Ltac q1 := match goal with
  | |- quiet (match ?x with _ => _ end) => destruct x
  | |- quiet (if ?x then _ else _) => destruct x
  | |- quiet (ibind _ _) => apply quiet_bind; [|intro]
  | |- quiet (iret _) => apply quiet_ret
  | |- quiet (ithrow _) => apply quiet_throw
  | |- quiet (iub _) => apply quiet_ub
  | |- quiet (lift _) => apply quiet_lift
  | |- quiet (say _ _ _) => apply quiet_say
  | |- quiet (theobj _) => apply quiet_obj
  | |- quiet (setobj _ _) => apply quiet_setobj
  | |- quiet (itry _) => apply quiet_try
  | |- quiet (nc_open _) => apply quiet_open
  | |- quiet (nc_inq _) => apply quiet_inq
  | |- quiet (nc_enddef _) => apply quiet_enddef
  | |- quiet (nc_inq_dimid _ _) => apply quiet_dimid
  | |- quiet (nc_inq_dimlen _ _) => apply quiet_dimlen
  | |- quiet (nc_inq_varid _ _) => apply quiet_varid
  | |- quiet (nc_get _ _ _ _) => apply quiet_get
  | |- quiet (nc_close _) => apply quiet_close
  | |- quiet (nc_create _) => apply quiet_create
  | |- quiet (nc_def_dim _ _ _) => apply quiet_define
  | |- quiet (nc_def_var _ _ _ _) => apply quiet_define
  | |- quiet (nc_put_att_text _ _ _ _) => apply quiet_define
  | |- quiet (nc_put_var _ _ _) => apply quiet_put_var; intros; now apply same_deref
  | |- quiet _ => solve [auto with quiet]
  end.
Ltac q := repeat q1.

Lemma quiet_rchk {A} d (c : code A) : quiet (rchk S d c).
Proof. unfold rchk, rerr. q. Qed.
Lemma quiet_wchk {A} (c : code A) : quiet (wchk S c).
Proof. unfold wchk. q. Qed.
Hint Resolve quiet_rchk quiet_wchk : quiet.
Lemma quiet_reader x : quiet (reader S x).
Proof. unfold reader. q. Qed.
Lemma quiet_getdim h x : quiet (getdim S h x).
Proof. unfold getdim. q. Qed.
Lemma quiet_rget {T} (conv : ncval S -> option (list (option T) * bool)) h x buf store : (forall l, quiet (store l)) -> quiet (rget S conv h x buf store).
Proof. intros H. unfold rget, rerr. q. Qed.
Hint Resolve quiet_reader quiet_getdim : quiet.
Ltac g := repeat (q1 || (apply quiet_rget; intro)).
Lemma quiet_get_int h x f : quiet (get_int S h x f).
Proof. unfold get_int. g. Qed.
Lemma quiet_get_flt h x f : quiet (get_flt S h x f).
Proof. unfold get_flt. g. Qed.
Lemma quiet_get_ints h x f : quiet (get_ints S h x f).
Proof. unfold get_ints. g. Qed.
Lemma quiet_get_arr h x f : quiet (get_arr S h x f).
Proof. unfold get_arr. g. Qed.
Lemma quiet_get_local_int h x : quiet (get_local_int S h x).
Proof. unfold get_local_int, drop. g. Qed.
Lemma quiet_get_local h x a : quiet (get_local S h x a).
Proof. unfold get_local, drop. g. Qed.
Lemma quiet_val {T} (x : option T) : quiet (val S x).
Proof. unfold val. q. Qed.
Lemma quiet_rclose h : quiet (rclose S h).
Proof. unfold rclose. q. Qed.
Lemma quiet_resize_ints f n : quiet (resize_ints S f n).
Proof. unfold resize_ints. q. Qed.
Lemma quiet_resize_arr f r c : quiet (resize_arr S f r c).
Proof. unfold resize_arr. q. Qed.
Lemma quiet_new_vec n : quiet (new_vec S n).
Proof. unfold new_vec. q. Qed.
Lemma quiet_new_mat r c : quiet (new_mat S r c).
Proof. unfold new_mat. q. Qed.
Lemma quiet_chatter p : quiet (chatter S p).
Proof. unfold chatter. q. Qed.
Hint Resolve quiet_get_int quiet_get_flt quiet_get_ints quiet_get_arr quiet_get_local_int quiet_get_local
  quiet_val quiet_rclose quiet_resize_ints quiet_resize_arr quiet_new_vec quiet_new_mat quiet_chatter : quiet.
Lemma quiet_get_mat h x r c : quiet (get_mat S h x r c).
Proof. unfold get_mat. q. Qed.
Lemma quiet_get_vec h x n : quiet (get_vec S h x n).
Proof. unfold get_vec. q. Qed.
Hint Resolve quiet_get_mat quiet_get_vec : quiet.

Lemma quiet_read_wout x flux : quiet (read_wout S x flux).
Proof. unfold read_wout. q. Qed.
Lemma quiet_read_boozmn x : quiet (read_boozmn S x).
Proof. unfold read_boozmn. q. Qed.

Lemma quiet_new_writer x : quiet (new_writer S x).
Proof. unfold new_writer. q. Qed.
Lemma quiet_wdim nc x n : quiet (wdim S nc x n).
Proof. unfold wdim. q. Qed.
Lemma quiet_add_attribute nc x a b : quiet (add_attribute S nc x a b).
Proof. unfold add_attribute. q. Qed.
Hint Resolve quiet_new_writer quiet_wdim quiet_add_attribute : quiet.
Lemma quiet_put nc ds x ty p a b : quiet (put S nc ds x ty p a b).
Proof. unfold put. q. Qed.
Lemma quiet_put_string nc x n s a : quiet (put_string S nc x n s a).
Proof. unfold put_string. q. Qed.
Lemma quiet_put_all h env l : quiet (put_all S h env l).
Proof. induction l as [|[x p] l IH]; cbn [put_all]; q. Qed.
Hint Resolve quiet_put quiet_put_string quiet_put_all : quiet.
Lemma quiet_write_and_close nc env : quiet (write_and_close S nc env).
Proof. unfold write_and_close. q. Qed.
Lemma quiet_put_ints nc ds x f a b : quiet (put_ints S nc ds x f a b).
Proof. unfold put_ints. q. Qed.
Lemma quiet_put_arr nc ds x f a b : quiet (put_arr S nc ds x f a b).
Proof. unfold put_arr. q. Qed.
Lemma quiet_put_mat nc x f a b : quiet (put_mat S nc x f a b).
Proof. unfold put_mat. q. Qed.
Lemma quiet_put_local_mat nc x f a b : quiet (put_local_mat S nc x f a b).
Proof. unfold put_local_mat. q. Qed.
Lemma quiet_prepend_zero f n : quiet (prepend_zero S f n).
Proof. unfold prepend_zero. q. Qed.
Lemma quiet_zero_vec n : quiet (zero_vec S n).
Proof. unfold zero_vec. q. Qed.
Hint Resolve quiet_write_and_close quiet_put_ints quiet_put_arr quiet_put_mat quiet_put_local_mat quiet_prepend_zero quiet_zero_vec : quiet.
Lemma quiet_write_boozmn version x : quiet (write_boozmn S version x).
Proof. unfold write_boozmn. q. Qed.
Hint Resolve quiet_read_wout quiet_write_boozmn : quiet.
Lemma quiet_driver_work version r : quiet (driver_work S version r).
Proof. unfold driver_work. q. Qed.

(** The working part of the two programs *)
Definition alike {A} (m m' : io A) : Prop := forall w w', same_world w w' -> same_result (m w) (m' w').
Lemma alike_bind {A B} (m m' : io A) (k k' : A -> io B) : alike m m' -> (forall a, alike (k a) (k' a)) -> alike (ibind m k) (ibind m' k').
Proof.
  intros Hm Hk w w' H. unfold ibind. specialize (Hm w w' H). destruct (m w), (m' w'); cbn in Hm; try contradiction; cbn; auto.
  destruct Hm as (-> & Hs). now apply Hk.
Qed.
Lemma alike_seti f old v : INT_MIN <= v <= INT_MAX -> alike (lift (seti f (Z.max old v))) (py_seti S f old (Z.max old v)).
Proof.
  intros H. unfold py_seti. assert (E : (Z.max old v =? old) || in_int (Z.max old v) = true).
  { apply orb_true_iff. destruct (Z.max_spec old v) as [(A & ->)|(A & ->)]; [right|left; apply Z.eqb_refl].
    unfold in_int. apply andb_true_iff. split; apply Z.leb_le; lia. }
  rewrite E. apply quiet_lift.
Qed.
End Quiet.

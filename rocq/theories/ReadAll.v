(** A reading that succeeds has read everything: for any file, object and behaviour of the library. *)
From Coq Require Import ZArith List String Bool Lia.
From Verif Require Import Scalar Prog Model Wp Func FuncExt Spec Vmec Nc NcModel NcSpec NcVoc NcThms NcThms2 NcThms3 NcThms4 Py Frame FrameThms.
Import ListNotations.
Local Open Scope Z_scope.
Local Open Scope io_scope.

(** ** Vocabulary *)
Section Voc.
Context {S : Scalar}.
Notation world := (world S).

Definition is_number (v : ncval S) : Prop := match v with VChar _ => False | _ => True end.
(** Every value is, or can be converted to, an int of 32 bits. *)
Definition fits (v : ncval S) : Prop :=
  match v with
  | VInt _ => True
  | VDbl l => forall x, In (Some x) l -> exists z, ftoZ S x = Some z /\ -2147483648 <= z <= 2147483647
  | VChar _ => False
  end.
Definition has_numbers (f : ncfile S) (x : string) : Prop := exists v, find_var f x = Some v /\ is_number (vr_val v).
Definition has_ints (f : ncfile S) (x : string) : Prop := exists v, find_var f x = Some v /\ fits (vr_val v).
(** The first value of a variable that is read as ints *)
Definition first_int (f : ncfile S) (x : string) (z : Z) : Prop := exists v, find_var f x = Some v /\
  match vr_val v with
  | VInt (Some y :: _) => y = z
  | VDbl (Some y :: _) => ftoZ S y = Some z
  | _ => False
  end.
(** At most [k] of the library calls between [w] and [w'] failed. *)
Definition failures (l : list verdict) : nat := List.length (filter (fun v => match v with Fine => false | _ => true end) l).
Definition at_most (k : nat) (w w' : world) : Prop := exists l, wQ w = l ++ wQ w' /\ (failures l <= k)%nat.

Definition wout_ints : list string :=
  ["lasym__logical__"; "ns"; "nfp"; "mpol"; "ntor"; "mnmax"; "mnmax_nyq"; "xm"; "xn"; "xm_nyq"; "xn_nyq"]%string.
Definition wout_floats : list string := ["aspect"; "iotas"; "rmnc"; "zmns"; "lmns"; "bmnc"; "bsubumnc"; "bsubvmnc"]%string.
Definition wout_fluxes : list string := ["chi"; "phipf"; "pres"; "phi"]%string.
Definition wout_asym : list string := ["rmns"; "zmnc"; "lmnc"; "bmns"; "bsubumns"; "bsubvmns"]%string.
Definition booz_ints : list string :=
  ["lasym__logical__"; "nfp_b"; "mboz_b"; "nboz_b"; "mnboz_b"; "ixm_b"; "ixn_b"; "jlist"; "ns_b"]%string.
Definition booz_floats : list string :=
  ["iota_b"; "bvco_b"; "buco_b"; "phi_b"; "phip_b"; "pres_b"; "bmnc_b"; "rmnc_b"; "zmns_b"; "pmns_b"; "gmn_b"]%string.
Definition booz_asym : list string := ["bmns_b"; "rmns_b"; "zmnc_b"; "pmnc_b"; "gmns_b"]%string.
End Voc.

Section Proof.
Context {S : Scalar}.
Notation world := (world S).
Notation io := (io S).

Lemma failures_app l1 l2 : failures (l1 ++ l2) = (failures l1 + failures l2)%nat.
Proof. unfold failures. now rewrite filter_app, app_length. Qed.
Lemma at_most_refl (w : world) : at_most 0 w w.
Proof. exists []. split; [reflexivity|cbn; lia]. Qed.
Lemma at_most_trans j k (w1 w2 w3 : world) : at_most j w1 w2 -> at_most k w2 w3 -> at_most (j + k) w1 w3.
Proof. intros (l1 & E1 & F1) (l2 & E2 & F2). exists (l1 ++ l2). rewrite E1, E2, app_assoc, failures_app. split; [reflexivity|lia]. Qed.

Lemma at_most_same (w w' : world) : wQ w' = wQ w -> at_most 0 w w'.
Proof. intros E. exists []. rewrite E. split; [reflexivity|cbn; lia]. Qed.

(** Every member but asym *)
Definition but_asym : list mem :=
  [MI I_verbose; MI I_nfp; MI I_mpol; MI I_ntor; MI I_mnmax; MI I_mpol_nyq; MI I_ntor_nyq; MI I_mnmax_nyq; MI I_ns_in; MI I_mboz; MI I_nboz;
   MF F_aspect; MF F_toroidal_flux; MN N_xm; MN N_xn; MN N_xm_nyq; MN N_xn_nyq; MN N_compute_surfs] ++ map MA input_arrays ++ result_members ++ private_members.
Lemma but_asym_B : ~ In (MB B_asym) but_asym.
Proof. intros H. cbn in H. intuition discriminate. Qed.
Lemma spares_asym {A} (p : prog S A) o a o' ev : spares but_asym p -> run p o = ROk a o' ev -> oB o' B_asym = oB o B_asym.
Proof. intros H E. pose proof (spares_run but_asym p o H) as G. rewrite E in G. exact (G (MB B_asym) but_asym_B). Qed.

(** The part of the world that matters here *)
Definition still (w w' : world) : Prop := wOpen w' = wOpen w /\ wFS w' = wFS w /\ oB (wO w') B_asym = oB (wO w) B_asym.
Lemma still_refl w : still w w.
Proof. repeat split. Qed.
Lemma still_trans a b c : still a b -> still b c -> still a c.
Proof. intros (A1 & A2 & A3) (B1 & B2 & B3). repeat split; congruence. Qed.
Section Rep.
Variables (h : Z) (f : ncfile S) (asy : option bool).
Definition ready (w : world) : Prop := handle w h = Some (Reading f) /\ oB (wO w) B_asym = asy.
Definition rep (k : nat) {A} (m : io A) (Q : A -> Prop) : Prop :=
  forall w, ready w -> match m w with
  | IOk a w' => still w w' /\ at_most k w w' /\ Q a
  | IThrow _ w' => still w w' /\ at_most (k + 1) w w'
  | _ => True
  end.
Lemma at_most_le j k (w w' : world) : at_most j w w' -> (j <= k)%nat -> at_most k w w'.
Proof. intros (l & E & F) H. exists l. split; [exact E|lia]. Qed.
Lemma still_ready (w w' : world) : still w w' -> ready w -> ready w'.
Proof. intros (E & _ & B) (H1 & H2). split; [unfold handle; rewrite E; exact H1|congruence]. Qed.
Lemma rep_bind_gen j k {A B} (m : io A) (g : A -> io B) Q R : rep j m Q -> (forall a, Q a -> rep k (g a) R) -> rep (j + k) (ibind m g) R.
Proof.
  intros H G w Hw. unfold ibind. specialize (H w Hw). destruct (m w) as [a w1|e w1| |]; auto.
  - destruct H as (S1 & A1 & Qa). specialize (G a Qa w1 (still_ready _ _ S1 Hw)). destruct (g a w1) as [b w2|e w2| |]; auto.
    + destruct G as (S2 & A2 & Rb). split; [exact (still_trans _ _ _ S1 S2)|]. split; [exact (at_most_trans j k _ _ _ A1 A2)|exact Rb].
    + destruct G as (S2 & A2). split; [exact (still_trans _ _ _ S1 S2)|]. eapply at_most_le; [exact (at_most_trans _ _ _ _ _ A1 A2)|lia].
  - destruct H as (S1 & A1). split; [exact S1|]. eapply at_most_le; [exact A1|lia].
Qed.
Lemma rep_bind {A B} (m : io A) (g : A -> io B) Q R : rep 0 m Q -> (forall a, Q a -> rep 0 (g a) R) -> rep 0 (ibind m g) R.
Proof. apply (rep_bind_gen 0 0). Qed.
Lemma rep_ret {A} (a : A) (Q : A -> Prop) : Q a -> rep 0 (iret a) Q.
Proof. intros H w Hw. cbn. split; [apply still_refl|]. split; [apply at_most_refl|exact H]. Qed.
Lemma rep_ub {A} k m (Q : A -> Prop) : rep k (iub m) Q.
Proof. intros w Hw. exact Logic.I. Qed.
Lemma rep_err {A} x m k (Q : A -> Prop) : rep k (rerr S x m) Q.
Proof. intros w Hw. cbn. split; [repeat split|]. apply at_most_le with (j := 0%nat); [now apply at_most_same|lia]. Qed.
Lemma rep_lift {A} (p : prog S A) : spares but_asym p -> rep 0 (lift p) (fun _ => True).
Proof.
  intros H w Hw. unfold lift. pose proof (spares_run but_asym p (wO w) H) as G.
  destruct (run p (wO w)) as [a o ev|e o ev|]; auto; specialize (G (MB B_asym) but_asym_B).
  - split; [repeat split; exact G|]. split; [now apply at_most_same|exact Logic.I].
  - split; [repeat split; exact G|]. apply at_most_le with (j := 0%nat); [now apply at_most_same|lia].
Qed.
Lemma rep_getb : rep 0 (lift (getb B_asym)) (fun b => asy = Some b).
Proof.
  intros w (Hw & Hb). unfold lift. cbn. rewrite Hb. destruct asy as [b|]; [|exact Logic.I].
  split; [repeat split|]. split; [now apply at_most_same|reflexivity].
Qed.
Lemma rep_obj : rep 0 (theobj S) (fun _ => True).
Proof. intros w Hw. cbn. split; [apply still_refl|]. split; [apply at_most_refl|exact Logic.I]. Qed.
Lemma rep_if {A} k (c : bool) (m1 m2 : io A) Q : (c = true -> rep k m1 Q) -> (c = false -> rep k m2 Q) -> rep k (if c then m1 else m2) Q.
Proof. destruct c; auto. Qed.
Lemma rep_val {T} (x : option T) : rep 0 (val S x) (fun v => x = Some v).
Proof. destruct x; [now apply rep_ret|apply rep_ub]. Qed.
Lemma rep_weaken {A} (m : io A) (Q R : A -> Prop) : rep 0 m Q -> (forall a, Q a -> R a) -> rep 0 m R.
Proof. intros H G w Hw. specialize (H w Hw). destruct (m w); auto. destruct H as (? & ? & ?). auto. Qed.
Lemma rep_try (m : io unit) (Q : unit -> Prop) : rep 0 m Q -> rep 1 (itry m) (fun _ => True).
Proof.
  intros H w Hw. specialize (H w Hw). unfold itry. destruct (m w) as [a w1|e w1| |]; auto.
  - destruct H as (H1 & H2 & _). split; [exact H1|]. split; [|exact Logic.I]. eapply at_most_le; [exact H2|lia].
  - destruct H as (H1 & H2). split; [exact H1|]. split; [exact H2|exact Logic.I].
Qed.

(** Library calls *)
Lemma rep_call {A} x (g : world -> ires S (code A)) (Q : A -> Prop) :
  (forall w, ready w -> match g w with IOk (Good a) w' => w' = w /\ Q a | IOk (Err _) w' => w' = w | IThrow _ _ => False | _ => True end) ->
  rep 0 (c <- Nc.call g ;; rchk S x c) Q.
Proof.
  intros H w Hw. unfold ibind, Nc.call.
  assert (C : forall w0, (wQ w = wQ w0 \/ wQ w = Fine :: wQ w0) -> still w w0 ->
    match (c <- g ;; rchk S x c) w0 with IOk a w' => still w w' /\ at_most 0 w w' /\ Q a | IThrow _ w' => still w w' /\ at_most 1 w w' | _ => True end).
  { intros w0 Hq St. specialize (H w0 (still_ready _ _ St Hw)).
    assert (A0 : at_most 0 w w0). { destruct Hq as [Hq|Hq]; [exists []|exists [Fine]]; (split; [exact Hq|cbn; lia]). }
    unfold ibind. destruct (g w0) as [[m|a] w1|e w1| |]; auto; try contradiction.
    - subst w1. cbn. split; [destruct St as (? & ? & ?); repeat split; assumption|]. eapply at_most_le; [|apply Nat.le_0_1]. exact A0.
    - destruct H as (-> & Qa). cbn. split; [exact St|]. split; [exact A0|exact Qa]. }
  destruct (wQ w) as [|[|m|] q] eqn:Eq; auto.
  - apply (C w); [now left|apply still_refl].
  - apply (C (setQ w q)); [now right|repeat split].
  - cbn. split; [repeat split|]. exists [Fail m]. split; [exact Eq|cbn; lia].
Qed.
Lemma ready_contents w : ready w -> contents w h = Some f.
Proof. intros (E & _). unfold contents. now rewrite E. Qed.
Lemma rep_assoc {A B C} k (m : io A) (g : A -> io B) (e : B -> io C) Q : rep k (a <- (b <- m ;; g b) ;; e a) Q -> rep k (b <- m ;; a <- g b ;; e a) Q.
Proof.
  intros H w Hw. specialize (H w Hw). revert H. unfold ibind. destruct (m w); auto.
Qed.
(** What a conversion without error tells *)
Definition converts {T} (conv : ncval S -> option (list (option T) * bool)) (x : string) (l : list (option T)) : Prop :=
  exists v, find_var f x = Some v /\ conv (vr_val v) = Some (l, false).
Lemma rep_rget {T} (conv : ncval S -> option (list (option T) * bool)) x buf (store : list (option T) -> io unit) :
  (forall l, rep 0 (store l) (fun _ => True)) ->
  rep 0 (rget S conv h x buf store) (fun l => exists l', converts conv x l' /\ (l' <> [] -> hd_error l = hd_error l')).
Proof.
  intros Hs. unfold rget. apply rep_assoc. apply rep_bind with (Q := fun _ => True).
  { unfold nc_inq_varid. apply rep_call. intros w Hw. rewrite (ready_contents w Hw). destruct (find_var f x); cbn; auto. }
  intros _ _. apply rep_bind with (Q := fun _ => True); [apply rep_if; intros _; [apply rep_ub|now apply rep_ret]|]. intros _ _.
  apply rep_assoc. apply rep_bind with (Q := fun p => match fst p with Some _ => True | None => exists l', converts conv x l' /\ (l' <> [] -> hd_error (snd p) = hd_error l') end).
  { unfold nc_get. apply rep_call. intros w Hw. rewrite (ready_contents w Hw). destruct (find_var f x) as [v|] eqn:V; cbn; auto.
    destruct (conv (vr_val v)) as [(l, rng)|] eqn:C; cbn; auto. match goal with |- context [if ?b then IUB _ else _] => destruct b end; auto. split; [reflexivity|]. cbn.
    destruct rng; auto. exists l. split; [exists v; auto|]. destruct l; [congruence|reflexivity]. }
  intros (e, l) He. apply rep_bind with (Q := fun _ => True); [apply Hs|]. intros _ _.
  destruct e; [apply rep_err|]. apply rep_ret. exact He.
Qed.
Lemma converts_int x l : converts to_int x l -> has_ints f x.
Proof.
  intros (v & V & C). exists v. split; [exact V|]. destruct (vr_val v) as [k|k|k]; cbn in C |- *; auto; try discriminate C.
  injection C as <- C. intros y Hy. 
  assert (N : snd (int_cell (Some y)) = false).
  { destruct (snd (int_cell (Some y))) eqn:E; [|reflexivity]. exfalso. rewrite <- not_true_iff_false in C. apply C.
    apply existsb_exists. exists (Some y). auto. }
  cbn in N. destruct (ftoZ S y) as [z|]; [|discriminate N]. exists z. split; [reflexivity|].
  destruct (in_int z) eqn:I; [|discriminate N]. unfold in_int, INT_MIN, INT_MAX in I. apply andb_prop in I. rewrite !Z.leb_le in I. lia.
Qed.
Lemma converts_dbl x l : converts to_dbl x l -> has_numbers f x.
Proof. intros (v & V & C). exists v. split; [exact V|]. destruct (vr_val v); cbn in *; auto. discriminate C. Qed.
Lemma rep_setobj (g : obj S -> obj S) : (forall o, oB (g o) B_asym = oB o B_asym) -> rep 0 (o <- theobj S ;; setobj S (g o)) (fun _ => True).
Proof. intros H w Hw. cbn. split; [repeat split; apply H|]. split; [now apply at_most_same|exact Logic.I]. Qed.
Lemma rep_get_int x k : rep 0 (get_int S h x k) (fun _ => has_ints f x).
Proof.
  unfold get_int. apply rep_bind with (Q := fun _ => True); [apply rep_obj|]. intros o _.
  eapply rep_bind; [apply rep_rget; intros l; now apply rep_setobj|].
  intros l (l' & C & _). apply rep_ret. eapply converts_int, C.
Qed.
Lemma rep_get_flt x k : rep 0 (get_flt S h x k) (fun _ => has_numbers f x).
Proof.
  unfold get_flt. apply rep_bind with (Q := fun _ => True); [apply rep_obj|]. intros o _.
  eapply rep_bind; [apply rep_rget; intros l; now apply rep_setobj|].
  intros l (l' & C & _). apply rep_ret. eapply converts_dbl, C.
Qed.
Lemma rep_get_ints x k : rep 0 (get_ints S h x k) (fun _ => has_ints f x).
Proof.
  unfold get_ints. apply rep_bind with (Q := fun _ => True); [apply rep_obj|]. intros o _.
  eapply rep_bind; [apply rep_rget; intros l; now apply rep_setobj|].
  intros l (l' & C & _). apply rep_ret. eapply converts_int, C.
Qed.
Lemma rep_get_arr x k : rep 0 (get_arr S h x k) (fun _ => has_numbers f x).
Proof.
  unfold get_arr. apply rep_bind with (Q := fun _ => True); [apply rep_obj|]. intros o _.
  eapply rep_bind; [apply rep_rget; intros l; now apply rep_setobj|].
  intros l (l' & C & _). apply rep_ret. eapply converts_dbl, C.
Qed.
Lemma rep_get_local_int x : rep 0 (get_local_int S h x) (fun a => has_ints f x /\ exists l, converts to_int x l /\ (l <> [] -> hd_error l = Some a)).
Proof.
  unfold get_local_int. eapply rep_bind; [apply rep_rget; intros l; now apply rep_ret|].
  intros l (l' & C & E). apply rep_ret. split; [eapply converts_int, C|]. exists l'. split; [exact C|].
  intros N. specialize (E N). destruct l' as [|c l']; [congruence|]. destruct l; [discriminate E|]. cbn in *. congruence.
Qed.
Lemma rep_get_local x a : rep 0 (get_local S h x a) (fun _ => has_numbers f x).
Proof.
  unfold get_local. eapply rep_bind; [apply rep_rget; intros l; now apply rep_ret|].
  intros l (l' & C & _). apply rep_ret. eapply converts_dbl, C.
Qed.
Lemma rep_getdim x : rep 0 (getdim S h x) (fun _ => True).
Proof.
  unfold getdim. apply rep_assoc. apply rep_bind with (Q := fun _ => True).
  - unfold nc_inq_dimid. apply rep_call. intros w Hw. rewrite (ready_contents w Hw). destruct (lookup _ _); cbn; auto.
  - intros _ _. unfold nc_inq_dimlen. apply rep_call. intros w Hw. rewrite (ready_contents w Hw). destruct (lookup _ _); cbn; auto.
Qed.
Lemma rep_get_vec x n : rep 0 (get_vec S h x n) (fun _ => has_numbers f x).
Proof. unfold get_vec. eapply rep_bind; [apply rep_lift; sp|]. intros a _. apply rep_get_local. Qed.
Lemma rep_get_mat x r c : rep 0 (get_mat S h x r c) (fun _ => has_numbers f x).
Proof. unfold get_mat. eapply rep_bind; [apply rep_lift; sp|]. intros a _. apply rep_get_local. Qed.
Lemma rep_resize_ints k n : In (MN k) but_asym -> rep 0 (resize_ints S k n) (fun _ => True).
Proof.
  intros H. unfold resize_ints. eapply rep_bind; [apply rep_obj|]. intros o _. eapply rep_bind; [apply rep_lift; sp|]. intros a _.
  apply rep_lift. split; [exact H|exact Logic.I].
Qed.
Lemma rep_resize_arr k r c : In (MA k) but_asym -> rep 0 (resize_arr S k r c) (fun _ => True).
Proof. intros H. unfold resize_arr, resize_member. apply rep_lift. sp. split; [exact H|exact Logic.I]. Qed.

(** The end of a reading *)
Definition ends (k : nat) {A} (m : io A) (Q : A -> Prop) : Prop :=
  forall w, ready w -> match m w with
  | IOk a w' => wFS w' = wFS w /\ wOpen w' = filter (fun p => negb (fst p =? h)) (wOpen w) /\ oB (wO w') B_asym = oB (wO w) B_asym /\ at_most k w w' /\ Q a
  | _ => True
  end.
Lemma ends_bind_gen j k {A B} (m : io A) (g : A -> io B) Q R : rep j m Q -> (forall a, Q a -> ends k (g a) R) -> ends (j + k) (ibind m g) R.
Proof.
  intros H G w Hw. unfold ibind. specialize (H w Hw). destruct (m w) as [a w1|e w1| |]; auto.
  destruct H as (S1 & A1 & Qa). specialize (G a Qa w1 (still_ready _ _ S1 Hw)). destruct (g a w1) as [b w2|e w2| |]; auto.
  destruct G as (G1 & G2 & G3 & G4 & G5), S1 as (S1 & S2 & S3). rewrite G2, S1. repeat split; try congruence.
  exact (at_most_trans j k _ _ _ A1 G4).
Qed.
Lemma ends_bind k {A B} (m : io A) (g : A -> io B) Q R : rep 0 m Q -> (forall a, Q a -> ends k (g a) R) -> ends k (ibind m g) R.
Proof. apply (ends_bind_gen 0 k). Qed.
Lemma ends_bind1 {A B} (m : io A) (g : A -> io B) Q R : rep 1 m Q -> (forall a, Q a -> ends 0 (g a) R) -> ends 1 (ibind m g) R.
Proof. apply (ends_bind_gen 1 0). Qed.
Lemma ends_close (Q : unit -> Prop) : Q tt -> ends 0 (rclose S h) Q.
Proof.
  intros HQ w (Hw & Hb). unfold rclose, ibind, nc_close, Nc.call.
  assert (C : forall w0, (wQ w = wQ w0 \/ wQ w = Fine :: wQ w0) -> still w w0 ->
    match (match handle w0 h with
     | None => IOk (Err "NetCDF: Not a valid ID") w0 | Some (Reading _) => IOk (Good tt) (drop_handle w0 h)
     | Some (Writing x f) => IOk (Good tt) (setFS (drop_handle w0 h) x (Whole f)) end) with
    | IOk a w' => match rchk S "close()" a w' with
       | IOk a w' => wFS w' = wFS w /\ wOpen w' = filter (fun p => negb (fst p =? h)) (wOpen w) /\ oB (wO w') B_asym = oB (wO w) B_asym /\ at_most 0 w w' /\ Q a
       | _ => True end
    | _ => True end).
  { intros w0 Hq (S1 & S2 & S3). assert (E : handle w0 h = Some (Reading f)) by (unfold handle; rewrite S1; exact Hw). rewrite E. cbn.
    rewrite S1. repeat split; auto. destruct Hq as [Hq|Hq]; [exists []|exists [Fine]]; (split; [exact Hq|cbn; lia]). }
  destruct (wQ w) as [|[|m|] q] eqn:Eq; try exact Logic.I.
  - specialize (C w (or_introl (eq_sym Eq)) (still_refl w)). destruct (handle w h) as [[]|]; exact C.
  - specialize (C (setQ w q) (or_intror eq_refl) ltac:(repeat split)). cbn in C |- *. destruct (handle _ h) as [[]|]; exact C.
Qed.
Lemma ends_close_lift (p : prog S unit) (Q : unit -> Prop) : spares but_asym p -> Q tt -> ends 0 (rclose S h ;;; lift p) Q.
Proof.
  intros H HQ w Hw. pose proof (ends_close (fun _ => True) Logic.I w Hw) as E. unfold ibind. destruct (rclose S h w) as [a w1| | |]; auto.
  destruct E as (E1 & E2 & E3 & E4 & _). pose proof (rep_lift p H) as L. unfold lift.
  pose proof (spares_run but_asym p (wO w1) H) as G.
  destruct (run p (wO w1)) as [[] o ev|e o ev|]; auto. specialize (G (MB B_asym) but_asym_B). cbn in G |- *.
  repeat split; try congruence. destruct E4 as (l & L1 & L2). exists l. auto.
Qed.
End Rep.

(** ** The whole readers *)
Section Whole.
Lemma filter_id {A} (g : A -> bool) l : (forall x, In x l -> g x = true) -> filter g l = l.
Proof. induction l as [|x l IH]; intros H; cbn; [reflexivity|]. rewrite (H x (or_introl eq_refl)), IH; [reflexivity|]. intros; apply H. now right. Qed.
(** The object before asym is set is arbitrary: the beginning of both readers. *)
Lemma reader_opens x (w : world) k w' : reader S x w = IOk k w' ->
  exists f, wFS w x = Some (Whole f) /\ handle w' k = Some (Reading f) /\ wO w' = wO w /\ wFS w' = wFS w /\ at_most 0 w w' /\
    wOpen w' = (k, Reading f) :: wOpen w /\ k = wNext w.
Proof.
  unfold reader, ibind, nc_open, nc_inq, Nc.call. intros E.
  assert (A : exists w0, at_most 0 w w0 /\ wO w0 = wO w /\ wFS w0 = wFS w /\ wOpen w0 = wOpen w /\ wNext w0 = wNext w /\
    exists f w1, wFS w0 x = Some (Whole f) /\ new_handle w0 (Reading f) = (k, w1) /\ at_most 0 w1 w' /\ wO w' = wO w1 /\ wFS w' = wFS w1 /\ wOpen w' = wOpen w1).
  { assert (B : forall w0, at_most 0 w w0 -> wO w0 = wO w -> wFS w0 = wFS w -> wOpen w0 = wOpen w -> wNext w0 = wNext w ->
      match (match wFS w0 x with
       | None => IOk (Err "No such file or directory") w0
       | Some Torn => IUB "contents of a file that was not closed properly"
       | Some (Whole f) => let '(h, w') := new_handle w0 (Reading f) in IOk (Good h) w'
       end) with
       | IOk a w1 => match rchk S x a w1 with
          | IOk a0 w2 => match (match wQ w2 with [] => IOk (Good tt) w2 | Fine :: q => IOk (Good tt) (setQ w2 q)
                                | Fail m :: q => IOk (Err m) (setQ w2 q) | Die :: q => IDie (setQ w2 q) end) with
                         | IOk a1 w3 => match rchk S x a1 w3 with IOk _ w4 => iret a0 w4 | IThrow e w4 => IThrow e w4 | IUB y => IUB y | IDie w4 => IDie w4 end
                         | IThrow e w3 => IThrow e w3 | IUB y => IUB y | IDie w3 => IDie w3 end
          | IThrow e w2 => IThrow e w2 | IUB y => IUB y | IDie w2 => IDie w2 end
       | IThrow e w1 => IThrow e w1 | IUB y => IUB y | IDie w1 => IDie w1 end = IOk k w' ->
      exists w0, at_most 0 w w0 /\ wO w0 = wO w /\ wFS w0 = wFS w /\ wOpen w0 = wOpen w /\ wNext w0 = wNext w /\
      exists f w1, wFS w0 x = Some (Whole f) /\ new_handle w0 (Reading f) = (k, w1) /\ at_most 0 w1 w' /\ wO w' = wO w1 /\ wFS w' = wFS w1 /\ wOpen w' = wOpen w1).
    { intros w0 A0 A1 A2 A3 A4 G. exists w0. repeat (split; [assumption|]).
      destruct (wFS w0 x) as [[f|]|]; try discriminate G. exists f. cbn in G |- *.
      destruct (wQ w0) as [|[|m|] q] eqn:Q; try discriminate G; cbn in G; injection G as <- <-; eexists; (split; [reflexivity|]);
        (split; [reflexivity|]); repeat split.
      - now apply at_most_same.
      - exists [Fine]. cbn. rewrite Q. split; [reflexivity|cbn; lia]. }
    destruct (wQ w) as [|[|m|] q] eqn:Q; try discriminate E.
    - apply (B w); auto using at_most_refl.
    - apply (B (setQ w q)); auto. exists [Fine]. cbn. split; [exact Q|cbn; lia]. }
  destruct A as (w0 & A0 & A1 & A2 & A3 & A4 & f & w1 & F1 & F2 & F3 & F4 & F5 & F6). unfold new_handle in F2. injection F2 as <- <-.
  cbn in *. exists f. rewrite <- A2. repeat split; try congruence.
  - unfold handle. rewrite F6. cbn. now rewrite Z.eqb_refl.
  - apply (at_most_trans 0 0 w w0 w'); [exact A0|]. destruct F3 as (l & E1 & E2). exists l. auto.
Qed.

Lemma bind_ok {A B} (m : io A) (k : A -> io B) (w : world) b w' : ibind m k w = IOk b w' -> exists a w1, m w = IOk a w1 /\ k a w1 = IOk b w'.
Proof. unfold ibind. destruct (m w) as [a w1| | |]; try discriminate. eauto. Qed.
Lemma lift_ok {A} (p : prog S A) (w : world) a w' : lift p w = IOk a w' ->
  wFS w' = wFS w /\ wOpen w' = wOpen w /\ wNext w' = wNext w /\ at_most 0 w w' /\ exists ev, run p (wO w) = ROk a (wO w') ev.
Proof.
  unfold lift. intros E. destruct (run p (wO w)) as [b o ev| |] eqn:R; try discriminate E. injection E as <- <-. cbn.
  repeat split; [now apply at_most_same|eauto].
Qed.
Lemma converts_first f x l z : converts f to_int x l -> hd_error l = Some (Some z) -> first_int f x z.
Proof.
  intros (v & V & C) H. exists v. split; [exact V|]. destruct (vr_val v) as [k|k|k]; cbn in C; try discriminate C.
  - injection C as ->. destruct l as [|[y|] l]; cbn in H; try discriminate H. now injection H.
  - injection C as E N. destruct k as [|[y|] k]; cbn in E, N; subst l; cbn in H; try discriminate H.
    apply orb_false_iff in N. destruct N as (N & _). injection H as H. destruct (ftoZ S y) as [z'|]; [|discriminate N].
    destruct (in_int z'); [|discriminate N]. cbn in H. exact H.
Qed.
Lemma starts {B} x text (rest : Z -> io B) k (P : ncfile S -> bool -> Prop) (w w' : world) b :
  spares but_asym text ->
  (forall h f asy, ends h f (Some asy) k (rest h) (fun _ => P f asy)) ->
  (chatter S text ;;; h <- reader S x ;; a <- get_local_int S h "lasym__logical__" ;; a <- val S a ;;
   lift (setb B_asym (negb (a =? 0))) ;;; rest h) w = IOk b w' ->
  exists f z, wFS w x = Some (Whole f) /\ wFS w' = wFS w /\ (open_ok w -> wOpen w' = wOpen w) /\ at_most k w w' /\
    has_ints f "lasym__logical__" /\ first_int f "lasym__logical__" z /\ oB (wO w') B_asym = Some (negb (z =? 0)) /\ P f (negb (z =? 0)).
Proof.
  intros Ht Hr E. apply bind_ok in E. destruct E as ([] & w1 & E1 & E). apply lift_ok in E1. destruct E1 as (F1 & O1 & N1 & A1 & _).
  apply bind_ok in E. destruct E as (h & w2 & E2 & E). apply reader_opens in E2.
  destruct E2 as (f & X2 & H2 & _ & F2 & A2 & O2 & K2).
  apply bind_ok in E. destruct E as (a & w3 & E3 & E).
  pose proof (rep_get_local_int h f (oB (wO w2) B_asym) "lasym__logical__" w2 (conj H2 eq_refl)) as R3. rewrite E3 in R3.
  destruct R3 as ((O3 & F3 & _) & A3 & I3 & l & C3 & D3).
  apply bind_ok in E. destruct E as (z & w4 & E4 & E). destruct a as [z'|]; [|discriminate E4]. injection E4 as <- <-.
  assert (D : hd_error l = Some (Some z')).
  { apply D3. intros ->. destruct C3 as (v & V & C). clear D3. revert E3. unfold get_local_int, rget.
    intros E3. apply bind_ok in E3. destruct E3 as (l & u & E3 & E5). injection E5 as E5 <-.
    apply bind_ok in E3. destruct E3 as (c0 & u1 & G1 & E3). apply bind_ok in E3. destruct E3 as ([] & u2 & G2 & E3).
    apply bind_ok in E3. destruct E3 as ([] & u3 & G3 & E3). apply bind_ok in E3. destruct E3 as (c1 & u4 & G4 & E3).
    apply bind_ok in E3. destruct E3 as ((e, l0) & u5 & G5 & E3). apply bind_ok in E3. destruct E3 as ([] & u6 & G6 & E3).
    destruct e; [discriminate E3|]. injection E3 as <- <-.
    destruct c0 as [m|[]]; [discriminate G2|]. injection G2 as <-. injection G3 as <-.
    destruct c1 as [m|p]; [discriminate G5|]. injection G5 as -> <-.
    assert (R : contents u1 h = Some f).
    { pose proof (still_ready h f (oB (wO w2) B_asym) w2 u1) as SR. apply (ready_contents h f (oB (wO w2) B_asym)). apply SR; [|split; [exact H2|reflexivity]].
      clear -G1. unfold nc_inq_varid, Nc.call in G1. destruct (wQ w2) as [|[|m|] q]; try discriminate G1;
        destruct (contents _ h) in G1; try discriminate G1; destruct (find_var _ _) in G1; try discriminate G1; injection G1 as <-; repeat split. }
    unfold nc_get, Nc.call in G4. exfalso.
    assert (R' : forall q, contents (setQ u1 q) h = contents u1 h) by reflexivity.
    destruct (wQ u1) as [|[|m|] q]; try discriminate G4; rewrite ?R', R, V, C in G4; cbn in G4; injection G4 as G4 _; subst l0; cbn in E5; discriminate E5. }
  apply bind_ok in E. destruct E as ([] & w5 & E5 & E). unfold lift in E5. cbn in E5. injection E5 as <-.
  match type of E with rest h ?u = _ => set (w5 := u) in * end.
  assert (Rd : ready h f (Some (negb (z' =? 0))) w5).
  { split; [unfold handle in *; cbn; now rewrite O3|reflexivity]. }
  pose proof (Hr h f (negb (z' =? 0)) w5 Rd) as R. rewrite E in R. destruct R as (R1 & R2 & R3 & R4 & R5).
  exists f, z'. split; [rewrite <- F1; exact X2|]. split; [rewrite R1; cbn; congruence|]. split.
  { intros Op. rewrite R2. cbn. rewrite O3, O2, O1. cbn. rewrite Z.eqb_refl. cbn. rewrite K2, N1. apply filter_id.
    intros p Hp. apply negb_true_iff, Z.eqb_neq. pose proof (proj1 (Forall_forall _ _) Op p Hp). cbn in *. lia. }
  split.
  { apply (at_most_trans 0 k w w1 w' A1). apply (at_most_trans 0 k w1 w2 w' A2). apply (at_most_trans 0 k w2 w3 w' A3).
    destruct R4 as (l4 & L4 & L5). exists l4. auto. }
  split; [exact I3|]. split; [eapply converts_first; eauto|]. split; [rewrite R3; apply Rd|exact R5].
Qed.

Ltac e1 := lazymatch goal with
  | |- ends _ _ _ _ (ibind (get_int _ _ _ _) _) _ => eapply ends_bind; [apply rep_get_int|intros ? ?]
  | |- ends _ _ _ _ (ibind (get_flt _ _ _ _) _) _ => eapply ends_bind; [apply rep_get_flt|intros ? ?]
  | |- ends _ _ _ _ (ibind (get_ints _ _ _ _) _) _ => eapply ends_bind; [apply rep_get_ints|intros ? ?]
  | |- ends _ _ _ _ (ibind (get_arr _ _ _ _) _) _ => eapply ends_bind; [apply rep_get_arr|intros ? ?]
  | |- ends _ _ _ _ (ibind (get_local _ _ _ _) _) _ => eapply ends_bind; [apply rep_get_local|intros ? ?]
  | |- ends _ _ _ _ (ibind (get_local_int _ _ _) _) _ => eapply ends_bind; [apply rep_get_local_int|intros ? (? & _)]
  | |- ends _ _ _ _ (ibind (get_vec _ _ _ _) _) _ => eapply ends_bind; [apply rep_get_vec|intros ? ?]
  | |- ends _ _ _ _ (ibind (get_mat _ _ _ _ _) _) _ => eapply ends_bind; [apply rep_get_mat|intros ? ?]
  | |- ends _ _ _ _ (ibind (getdim _ _ _) _) _ => eapply ends_bind; [apply rep_getdim|intros ? _]
  | |- ends _ _ _ _ (ibind (val _ _) _) _ => eapply ends_bind; [apply rep_val|intros ? _]
  | |- ends _ _ _ _ (ibind (theobj _) _) _ => eapply ends_bind; [apply rep_obj|intros ? _]
  | |- ends _ _ _ _ (ibind (lift (getb B_asym)) _) _ => eapply ends_bind; [apply rep_getb|intros ? ?]
  | |- ends _ _ _ _ (ibind (lift (fill_vec _ _ _ _)) _) _ => eapply ends_bind; [apply rep_lift, spares_fill; [inl|intros; sp]|intros ? _]
  | |- ends _ _ _ _ (ibind (lift _) _) _ => eapply ends_bind; [apply rep_lift; sp; try apply spares_neg|intros ? _]
  | |- ends _ _ _ _ (ibind (chatter _ _) _) _ => eapply ends_bind; [apply rep_lift; sp; first [apply spares_elems|apply spares_elems_n|idtac]|intros ? _]
  | |- ends _ _ _ _ (ibind (new_vec _ _) _) _ => eapply ends_bind; [apply rep_lift; sp|intros ? _]
  | |- ends _ _ _ _ (ibind (resize_ints _ _ _) _) _ => eapply ends_bind; [apply rep_resize_ints; inl|intros ? _]
  | |- ends _ _ _ _ (ibind (resize_arr _ _ _ _) _) _ => eapply ends_bind; [apply rep_resize_arr; inl|intros ? _]
  end.
Ltac r1 := lazymatch goal with
  | |- rep _ _ _ _ (ibind (get_arr _ _ _ _) _) _ => eapply rep_bind; [apply rep_get_arr|intros ? ?]
  | |- rep _ _ _ _ (ibind (get_vec _ _ _ _) _) _ => eapply rep_bind; [apply rep_get_vec|intros ? ?]
  | |- rep _ _ _ _ (ibind (get_mat _ _ _ _ _) _) _ => eapply rep_bind; [apply rep_get_mat|intros ? ?]
  | |- rep _ _ _ _ (ibind (lift _) _) _ => eapply rep_bind; [apply rep_lift; sp; try apply spares_neg|intros ? _]
  | |- rep _ _ _ _ (ibind (resize_arr _ _ _ _) _) _ => eapply rep_bind; [apply rep_resize_arr; inl|intros ? _]
  end.
Ltac pick := let H := fresh in intros ? H; repeat destruct H as [<-|H]; try contradiction; assumption.

Theorem wout_complete x fl (w w' : world) : read_wout S x fl w = IOk tt w' ->
  exists f z, wFS w x = Some (Whole f) /\ wFS w' = wFS w /\ (open_ok w -> wOpen w' = wOpen w) /\ at_most 0 w w' /\
    (forall y, In y wout_ints -> has_ints f y) /\ (forall y, In y wout_floats -> has_numbers f y) /\
    (fl = true -> forall y, In y wout_fluxes -> has_numbers f y) /\
    first_int f "lasym__logical__" z /\ oB (wO w') B_asym = Some (negb (z =? 0)) /\
    (z <> 0 -> forall y, In y wout_asym -> has_numbers f y).
Proof.
  intros E. unfold read_wout in E.
  apply (starts x _ _ 0 (fun f asy => (forall y, In y (tl wout_ints) -> has_ints f y) /\ (forall y, In y wout_floats -> has_numbers f y) /\
    (fl = true -> forall y, In y wout_fluxes -> has_numbers f y) /\ (asy = true -> forall y, In y wout_asym -> has_numbers f y))) in E; [|sp|].
  - destruct E as (f & z & E1 & E2 & E3 & E4 & E5 & E6 & E7 & E8 & E9 & E10 & E11). exists f, z. repeat (split; [assumption|]). split.
    { intros y [<-|Hy]; [exact E5|exact (E8 y Hy)]. }
    repeat (split; [assumption|]). intros Hz. apply E11. apply negb_true_iff, Z.eqb_neq, Hz.
  - clear. intros h f asy. repeat e1.
    eapply ends_bind with (Q := fun _ => fl = true -> forall y, In y wout_fluxes -> has_numbers f y).
    { destruct fl; [|apply rep_ret; discriminate]. repeat r1. apply rep_ret. intros _. pick. }
    intros (((?, ?), ?), ?) HF. repeat e1. cbn beta in *.
    match goal with H : Some asy = Some ?b |- _ => injection H as <- end.
    eapply ends_bind with (Q := fun _ => asy = true -> forall y, In y wout_asym -> has_numbers f y).
    { destruct asy; [|apply rep_ret; discriminate]. repeat r1. apply rep_ret. intros _. pick. }
    intros (((?, ?), ?), ((?, ?), ?)) HA. apply ends_close_lift.
    + apply spares_mono with (L := vmec_members); [|apply spares_vmec]. intros y Hy. cbn in Hy. repeat destruct Hy as [<-|Hy]; try contradiction; inl.
    + split; [pick|]. split; [pick|]. split; assumption.
Qed.
Theorem boozmn_complete x (w w' : world) : read_boozmn S x w = IOk tt w' ->
  exists f z, wFS w x = Some (Whole f) /\ wFS w' = wFS w /\ (open_ok w -> wOpen w' = wOpen w) /\ at_most 1 w w' /\
    (forall y, In y booz_ints -> has_ints f y) /\ (forall y, In y booz_floats -> has_numbers f y) /\
    first_int f "lasym__logical__" z /\ oB (wO w') B_asym = Some (negb (z =? 0)) /\
    (z <> 0 -> forall y, In y booz_asym -> has_numbers f y).
Proof.
  intros E. unfold read_boozmn in E.
  apply (starts x _ _ 1 (fun f asy => (forall y, In y (tl booz_ints) -> has_ints f y) /\ (forall y, In y booz_floats -> has_numbers f y) /\
    (asy = true -> forall y, In y booz_asym -> has_numbers f y))) in E; [|sp|].
  - destruct E as (f & z & E1 & E2 & E3 & E4 & E5 & E6 & E7 & E8 & E9 & E10). exists f, z. repeat (split; [assumption|]). split.
    { intros y [<-|Hy]; [exact E5|exact (E8 y Hy)]. }
    repeat (split; [assumption|]). intros Hz. apply E10. apply negb_true_iff, Z.eqb_neq, Hz.
  - clear. intros h f asy. repeat e1.
    eapply ends_bind1; [eapply rep_try, rep_get_arr|]. intros _ _. repeat e1. cbn beta in *.
    match goal with H : Some asy = Some ?b |- _ => injection H as <- end.
    eapply ends_bind with (Q := fun _ => asy = true -> forall y, In y booz_asym -> has_numbers f y).
    { destruct asy.
      - repeat r1. eapply rep_weaken; [apply rep_get_arr|]. intros ? ? _. pick.
      - repeat r1. eapply rep_weaken; [apply rep_resize_arr; inl|]. discriminate. }
    intros _ HA. repeat e1. apply ends_close. split; [pick|]. split; [pick|]. assumption.
Qed.
End Whole.
End Proof.

(** ** Cases *)
Section Cases.
Variable S : Scalar.
Definition as_text (x : string) (g : ncfile S) : ncfile S := upd_var g x (fun v => mkVar (vr_name v) (vr_dims v) (vr_atts v) (VChar "1")).
Definition one_file (g : ncfile S) (q : list verdict) : world S := mkW (obj_new S) (fun x => if String.eqb x "f.nc" then Some (Whole g) else None) [] 0 q [].
Theorem complete_case :
  (exists w', read_wout S "f.nc" true (one_file (wex S false true) (repeat Fine 5)) = IOk tt w') /\
  (exists w', read_boozmn S "f.nc" (one_file (bfile_of S (bex S)) []) = IOk tt w') /\
  (exists m w', read_wout S "f.nc" true (one_file (wex S false true) (repeat Fine 17 ++ [Fail "Input/output error"])) = IThrow m w') /\
  (exists m w', read_boozmn S "f.nc" (one_file (as_text "bmnc_b" (bfile_of S (bex S))) []) = IThrow m w').
Proof.
  split; [|split; [|split]].
  - destruct (okd_ex S (read_wout S "f.nc" true (one_file (wex S false true) (repeat Fine 5))) (fun _ => True)) as (w & E & _); [vm_compute; exact Logic.I|eauto].
  - destruct (okd_ex S (read_boozmn S "f.nc" (one_file (bfile_of S (bex S)) [])) (fun _ => True)) as (w & E & _); [vm_compute; exact Logic.I|eauto].
  - destruct (thrown_ex S (read_wout S "f.nc" true (one_file (wex S false true) (repeat Fine 17 ++ [Fail "Input/output error"]))) (fun _ => True)) as (m & w & E & _); [vm_compute; exact Logic.I|eauto].
  - destruct (thrown_ex S (read_boozmn S "f.nc" (one_file (as_text "bmnc_b" (bfile_of S (bex S))) [])) (fun _ => True)) as (m & w & E & _); [vm_compute; exact Logic.I|eauto].
Qed.
End Cases.

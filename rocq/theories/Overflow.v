(** Property C81: what becomes of a variable with more elements than its array. *)
From Coq Require Import QArith ZArith List String Bool Lia.
From Verif Require Import Scalar Prog Model Wp Func FuncExt Spec Vmec Nc NcModel NcSpec NcVoc NcThms NcThms2 NcThms3 NcThms4 Py Frame FrameThms ReadAll Stored.
Import ListNotations.
Local Open Scope Z_scope.
Local Open Scope io_scope.

(** ** Vocabulary *)
Section Voc.
Context {S : Scalar}.
(** The variable [y] has more than [n] elements. *)
Definition more_than (f : ncfile S) (y : string) (n : Z) : Prop := exists v, find_var f y = Some v /\
  n < Z.of_nat (match vr_val v with VInt l => List.length l | VDbl l => List.length l | VChar l => String.length l end).
Definition each (n : Z) (l : list string) : list (string * Z) := map (fun y => (y, n)) l.
(** The variables that are read and the sizes of the arrays they are read into: [mn] modes, [ns] radial points, [nb] surfaces *)
Definition booz_room (mn ns nb : Z) (asym : bool) : list (string * Z) :=
  each 1 ["lasym__logical__"; "nfp_b"; "mboz_b"; "nboz_b"; "mnboz_b"; "ns_b"]%string ++ each mn ["ixm_b"; "ixn_b"]%string ++ each nb ["jlist"]%string ++
  each ns ["iota_b"; "bvco_b"; "buco_b"; "phi_b"; "phip_b"; "pres_b"]%string ++ each (mn * nb) ["bmnc_b"; "rmnc_b"; "zmns_b"; "pmns_b"; "gmn_b"]%string ++
  (if asym then each (mn * nb) ["bmns_b"; "rmns_b"; "zmnc_b"; "pmnc_b"; "gmns_b"]%string else []).
Definition wout_room (ns mn mnq : Z) (asym flux : bool) : list (string * Z) :=
  each 1 ["lasym__logical__"; "ns"; "nfp"; "mpol"; "ntor"; "mnmax"; "mnmax_nyq"; "aspect"]%string ++ each ns ["iotas"]%string ++
  each mn ["xm"; "xn"]%string ++ each mnq ["xm_nyq"; "xn_nyq"]%string ++ each (mn * ns) ["rmnc"; "zmns"; "lmns"]%string ++ each (mnq * ns) ["bmnc"; "bsubumnc"; "bsubvmnc"]%string ++
  (if asym then each (mn * ns) ["rmns"; "zmnc"; "lmnc"]%string ++ each (mnq * ns) ["bmns"; "bsubumns"; "bsubvmns"]%string else []) ++
  (if flux then each ns ["chi"; "phipf"; "pres"; "phi"]%string else []).
(** Everything that is read can be read. *)
Record booz_readable (f : ncfile S) : Prop := {
  bc_ints : forall y, In y booz_ints -> has_ints f y;
  bc_floats : forall y, In y booz_floats -> has_numbers f y;
  bc_radius : exists n, dim f "radius" n;
  bc_surfs : exists n, dim f "comput_surfs" n;
  bc_asym : forall a, first_int f "lasym__logical__" a -> a <> 0 -> forall y, In y booz_asym -> has_numbers f y }.
Record wout_readable (f : ncfile S) (flux : bool) : Prop := {
  wc_ints : forall y, In y wout_ints -> has_ints f y;
  wc_floats : forall y, In y wout_floats -> has_numbers f y;
  wc_fluxes : flux = true -> forall y, In y wout_fluxes -> has_numbers f y;
  wc_asym : forall a, first_int f "lasym__logical__" a -> a <> 0 -> forall y, In y wout_asym -> has_numbers f y }.
End Voc.

Section Proof.
Context {S : Scalar}.
Notation obj := (obj S).
Notation world := (world S).
Notation io := (io S).
Notation F := (F S).
Notation arr := (arr S).
Notation prog := (prog S).

(** Programs that throw nothing *)
Fixpoint tame {A} (p : prog A) : Prop :=
  match p with
  | Ret _ | UB _ => True
  | Throw _ => False
  | GetI _ k => forall v, tame (k v)
  | SetI _ _ k | SetB _ _ k | SetF _ _ k | PutA _ _ _ k | Out _ k | SetNArr _ _ k | SetArr _ _ k => tame k
  | GetB _ k => forall v, tame (k v)
  | GetF _ k => forall v, tame (k v)
  | GetN _ _ k => forall v, tame (k v)
  | SizeN _ k => forall v, tame (k v)
  | GetA _ _ k => forall v, tame (k v)
  | DimA _ k => forall r c, tame (k r c)
  | GetArr _ k => forall a, tame (k a)
  end.
Lemma tame_run {A} (p : prog A) : forall o, tame p -> match run p o with RThrow _ _ _ => False | _ => True end.
Proof.
  induction p; cbn; intros o Hp; auto; try contradiction.
  - destruct (oI o f); [apply H; auto|exact Logic.I].
  - apply IHp, Hp.
  - destruct (oB o f); [apply H; auto|exact Logic.I].
  - apply IHp, Hp.
  - destruct (oF o f); [apply H; auto|exact Logic.I].
  - apply IHp, Hp.
  - destruct (znth _ _) as [[v|]|]; [apply H; auto|exact Logic.I|exact Logic.I].
  - apply H; auto.
  - apply IHp, Hp.
  - destruct (znth _ _) as [[v|]|]; [apply H; auto|exact Logic.I|exact Logic.I].
  - destruct (znth _ _) as [?|]; [|exact Logic.I]. apply IHp, Hp.
  - apply H; auto.
  - apply H; auto.
  - apply IHp, Hp.
  - specialize (IHp o Hp). destruct (run p o); cbn; auto.
Qed.
Lemma tame_bind {A B} (p : prog A) (k : A -> prog B) : tame p -> (forall a, tame (k a)) -> tame (bind p k).
Proof. intros Hp Hk. induction p; cbn in *; firstorder. Qed.
Lemma tame_for {St} lo hi (st : St) (body : Z -> St -> prog St) : (forall j s, tame (body j s)) -> tame (for_ lo hi st body).
Proof.
  intros H. unfold for_. generalize (Z.to_nat (hi - lo)) as n. intros n. revert lo st. induction n as [|n IH]; intros lo st; cbn; [exact Logic.I|].
  apply tame_bind; [apply H|]. intros a. apply IH.
Qed.
Lemma tame_vget {T} (a : array T) i : tame (vget a i).
Proof. unfold vget. destruct (znth _ _) as [[?|]|]; exact Logic.I. Qed.
Lemma tame_vset {T} (a : array T) i x : tame (vset a i x).
Proof. unfold vset. destruct (znth _ _); exact Logic.I. Qed.
Lemma tame_resize {T} (a : array T) r c : tame (resize a r c).
Proof. unfold resize. destruct (_ || _); [exact Logic.I|]. destruct (_ =? _); exact Logic.I. Qed.
Lemma tame_int z : tame (int_ z).
Proof. unfold int_. destruct (in_int z); exact Logic.I. Qed.
Lemma tame_idiv a b : tame (idiv a b).
Proof. unfold idiv. destruct (_ =? _); [exact Logic.I|apply tame_int]. Qed.
Lemma tame_member k r c : tame (resize_member S k r c).
Proof. unfold resize_member. apply tame_bind; [intros a; exact Logic.I|]. intros a. apply tame_bind; [apply tame_resize|]. intros b. exact Logic.I. Qed.
Lemma tame_fill k n (x : Z -> prog F) : (forall j, tame (x j)) -> tame (fill_vec S k n x).
Proof.
  intros H. unfold fill_vec. apply tame_bind; [intros a; exact Logic.I|]. intros a. apply tame_bind; [|intros b; exact Logic.I].
  apply tame_for. intros j s. apply tame_bind; [apply H|]. intros v. apply tame_vset.
Qed.
Lemma tame_neg (a : arr) : tame (neg_arr S a).
Proof. unfold neg_arr. apply tame_bind; [|intros b; exact Logic.I]. apply tame_for. intros j s. apply tame_bind; [apply tame_vget|]. intros x. apply tame_vset. Qed.
Lemma tame_if {A} (c : bool) (p q : prog A) : tame p -> tame q -> tame (if c then p else q).
Proof. destruct c; auto. Qed.
Lemma tame_elems (a : arr) : tame (elems S a).
Proof. unfold elems. apply tame_for. intros j s. apply tame_bind; [apply tame_vget|]. intros x. exact Logic.I. Qed.
Lemma tame_elems_n k : tame (elems_n S k).
Proof.
  unfold elems_n. apply tame_bind; [intros v; exact Logic.I|]. intros n. apply tame_for. intros j s. apply tame_bind; [intros v; exact Logic.I|]. intros x. exact Logic.I.
Qed.

Section Calm.
Variables (h : Z) (f : ncfile S).
(** If no library call fails from outside, [m] ends normally, or its behaviour is undefined. *)
Definition calm {A} (m : io A) : Prop :=
  forall w, hand h f w -> wQ w = [] -> match m w with IOk _ w' => hand h f w' /\ wQ w' = [] | IUB _ => True | _ => False end.
Lemma calm_bind {A B} (m : io A) (g : A -> io B) : calm m -> (forall a, calm (g a)) -> calm (ibind m g).
Proof. intros H G w Hw Hq. unfold ibind. specialize (H w Hw Hq). destruct (m w) as [a w1| | |]; auto. apply G; apply H. Qed.
Lemma calm_ret {A} (a : A) : calm (iret a).
Proof. intros w Hw Hq. cbn. auto. Qed.
Lemma calm_lift {A} (p : prog A) : tame p -> calm (lift p).
Proof. intros H w Hw Hq. unfold lift. pose proof (tame_run p (wO w) H) as G. destruct (run p (wO w)); auto. Qed.
Lemma calm_obj : calm (theobj S).
Proof. intros w Hw Hq. cbn. auto. Qed.
Lemma calm_val {T} (x : option T) : calm (val S x).
Proof. destruct x; [apply calm_ret|]. intros w Hw Hq. exact Logic.I. Qed.
Lemma calm_rget {T} (conv : ncval S -> option (list (option T) * bool)) x buf store : (exists l, converts f conv x l) -> (forall l, calm (store l)) -> calm (rget S conv h x buf store).
Proof.
  intros (l & v & V & C) Hs. unfold rget. intros w Hw Hq. pose proof (hand_contents h f w Hw) as Hc.
  unfold ibind at 1. unfold nc_inq_varid, Nc.call. rewrite Hq, Hc, V. unfold ibind at 1. cbn [rchk iret].
  unfold ibind at 1. destruct (Nat.eqb_spec (List.length buf) 0); [exact Logic.I|]. cbn [iret]. unfold ibind at 1.
  unfold nc_get, Nc.call. rewrite Hq, Hc, V, C. destruct (_ <? _)%nat; [exact Logic.I|]. unfold ibind at 1. cbn [rchk iret].
  unfold ibind at 1. match goal with |- context [store ?l0 w] => specialize (Hs l0 w Hw Hq); destruct (store l0 w) as [u w1| | |] end; auto.
Qed.
Lemma ints_convert x : has_ints f x -> exists l, converts f to_int x l.
Proof.
  intros (v & V & C). unfold converts. destruct (vr_val v) as [d|d|d] eqn:E; cbn in C; [| |contradiction].
  { eexists. exists v. split; [exact V|]. now rewrite E. }
  eexists. exists v. split; [exact V|]. rewrite E. cbn.
  f_equal. f_equal. apply not_true_iff_false. intros N. apply existsb_exists in N. destruct N as ([y|] & Iy & N); [|discriminate N].
  destruct (C y Iy) as (z & E1 & E2). cbn in N. rewrite E1 in N. 
  assert (I : in_int z = true) by (unfold in_int, INT_MIN, INT_MAX; apply andb_true_intro; rewrite !Z.leb_le; lia). rewrite I in N. discriminate N.
Qed.
Lemma numbers_convert x : has_numbers f x -> exists l, converts f to_dbl x l.
Proof. intros (v & V & C). unfold converts. destruct (vr_val v) as [d|d|d] eqn:E; cbn in C; try contradiction; eexists; exists v; (split; [exact V|]); rewrite E; reflexivity. Qed.
Lemma calm_set (g : obj -> obj) : calm (o <- theobj S ;; setobj S (g o)).
Proof. intros w Hw Hq. cbn. auto. Qed.
Lemma calm_get_int x k : has_ints f x -> calm (get_int S h x k).
Proof. intros H. unfold get_int. apply calm_bind; [apply calm_obj|]. intros o. apply calm_bind; [|intros; apply calm_ret]. apply calm_rget; [now apply ints_convert|]. intros l. apply calm_set. Qed.
Lemma calm_get_ints x k : has_ints f x -> calm (get_ints S h x k).
Proof. intros H. unfold get_ints. apply calm_bind; [apply calm_obj|]. intros o. apply calm_bind; [|intros; apply calm_ret]. apply calm_rget; [now apply ints_convert|]. intros l. apply calm_set. Qed.
Lemma calm_get_flt x k : has_numbers f x -> calm (get_flt S h x k).
Proof. intros H. unfold get_flt. apply calm_bind; [apply calm_obj|]. intros o. apply calm_bind; [|intros; apply calm_ret]. apply calm_rget; [now apply numbers_convert|]. intros l. apply calm_set. Qed.
Lemma calm_get_arr x k : has_numbers f x -> calm (get_arr S h x k).
Proof. intros H. unfold get_arr. apply calm_bind; [apply calm_obj|]. intros o. apply calm_bind; [|intros; apply calm_ret]. apply calm_rget; [now apply numbers_convert|]. intros l. apply calm_set. Qed.
Lemma calm_get_local_int x : has_ints f x -> calm (get_local_int S h x).
Proof. intros H. unfold get_local_int. apply calm_bind; [|intros; apply calm_ret]. apply calm_rget; [now apply ints_convert|]. intros l. apply calm_ret. Qed.
Lemma calm_get_local x a : has_numbers f x -> calm (get_local S h x a).
Proof. intros H. unfold get_local. apply calm_bind; [|intros; apply calm_ret]. apply calm_rget; [now apply numbers_convert|]. intros l. apply calm_ret. Qed.
Lemma calm_get_mat x r c : has_numbers f x -> calm (get_mat S h x r c).
Proof. intros H. unfold get_mat. apply calm_bind; [apply calm_lift, tame_resize|]. intros a. now apply calm_get_local. Qed.
Lemma calm_get_vec x n : has_numbers f x -> calm (get_vec S h x n).
Proof. intros H. unfold get_vec. apply calm_bind; [apply calm_lift, tame_resize|]. intros a. now apply calm_get_local. Qed.
Lemma calm_resize_arr k r c : calm (resize_arr S k r c).
Proof. apply calm_lift, tame_member. Qed.
Lemma calm_resize_ints k n : calm (resize_ints S k n).
Proof. unfold resize_ints. apply calm_bind; [apply calm_obj|]. intros o. apply calm_bind; [apply calm_lift, tame_resize|]. intros a. apply calm_lift. exact Logic.I. Qed.
Lemma calm_getdim x : (exists n, dim f x n) -> calm (getdim S h x).
Proof.
  intros (n & D) w Hw Hq. pose proof (hand_contents h f w Hw) as Hc. unfold getdim, ibind, nc_inq_dimid, nc_inq_dimlen, Nc.call.
  unfold dim in D. rewrite Hq, Hc, D. cbn. rewrite Hq, Hc, D. cbn. auto.
Qed.
Lemma calm_chatter p : tame p -> calm (chatter S p).
Proof. intros H. unfold chatter. apply calm_lift. intros v. cbn. now apply tame_if. Qed.

(** With [b] the library never fails from outside; without, it may. *)
Variable b : bool.
Definition sgo (K : known) {A} (m : io A) (K' : A -> known) (Q : A -> Prop) : Prop :=
  forall w, hand h f w -> (b = true -> wQ w = []) -> inv K (wO w) ->
  match m w with IOk a w' => hand h f w' /\ (b = true -> wQ w' = []) /\ inv (K' a) (wO w') /\ Q a | IUB _ => True | _ => b = false end.
Lemma sgo_of {A} K (m : io A) K' Q : go h f K m K' Q -> (b = true -> calm m) -> sgo K m K' Q.
Proof.
  intros G C w Hw Hq Hi. specialize (G w Hw Hi). destruct b.
  - specialize (C eq_refl w Hw (Hq eq_refl)). destruct (m w) as [a w'| | |]; try contradiction; auto. destruct C as (C1 & C2), G as (G1 & G2 & G3). auto.
  - destruct (m w) as [a w'| | |]; auto. destruct G as (G1 & G2 & G3). split; [exact G1|]. split; [discriminate|auto].
Qed.
Lemma sgo_bind {A B} K (m : io A) (g : A -> io B) K1 Q K2 R :
  sgo K m K1 Q -> (forall a, Q a -> sgo (K1 a) (g a) K2 R) -> sgo K (ibind m g) K2 R.
Proof.
  intros H G w Hw Hq Hi. unfold ibind. specialize (H w Hw Hq Hi). destruct (m w) as [a w1| | |]; auto.
  destruct H as (H1 & H2 & H3 & H4). exact (G a H4 w1 H1 H2 H3).
Qed.
Definition sfin (K : known) {A} (m : io A) (P T : Prop) : Prop :=
  forall w, hand h f w -> (b = true -> wQ w = []) -> inv K (wO w) -> match m w with IOk _ _ => P | IThrow _ _ => T | IUB _ => True | IDie _ => b = false end.
Lemma sfin_bind {A B} K (m : io A) (g : A -> io B) K1 Q P (T : Prop) :
  (b = false -> T) -> sgo K m K1 Q -> (forall a, Q a -> sfin (K1 a) (g a) P T) -> sfin K (ibind m g) P T.
Proof.
  intros HT H G w Hw Hq Hi. unfold ibind. specialize (H w Hw Hq Hi). destruct (m w) as [a w1|e w1| |]; auto.
  destruct H as (H1 & H2 & H3 & H4). exact (G a H4 w1 H1 H2 H3).
Qed.
Lemma sfin_close K (P T : Prop) : (forall o, inv K o -> P) -> (b = false -> T) -> sfin K (rclose S h) P T.
Proof.
  intros H HT w Hw Hq Hi. unfold rclose, ibind. specialize (H _ Hi). unfold nc_close, Nc.call.
  destruct (wQ w) as [|[|m|] q] eqn:Eq.
  - rewrite Hw. exact H.
  - replace (handle (setQ w q) h) with (Some (Reading f)) by (symmetry; exact Hw). exact H.
  - apply HT. destruct b; [|reflexivity]. specialize (Hq eq_refl). discriminate Hq.
  - destruct b; [|reflexivity]. specialize (Hq eq_refl). discriminate Hq.
Qed.
Lemma sfin_close_lift K (p : prog unit) (P : Prop) : (forall o, inv K o -> P) -> sfin K (rclose S h ;;; lift p) P (b = true -> P).
Proof.
  intros H w Hw Hq Hi. pose proof (sfin_close K P (b = true -> P) H ltac:(intros -> N; discriminate N) w Hw Hq Hi) as C. specialize (H _ Hi). unfold ibind. destruct (rclose S h w) as [u w1| | |]; auto.
  unfold lift. destruct (run p (wO w1)) as [[] o ev| |]; auto.
Qed.
(** The one variable that may be missing *)
Lemma queue_get_arr x k w : hand h f w -> wQ w = [] -> match get_arr S h x k w with IOk _ w' | IThrow _ w' => wQ w' = [] | IUB _ => True | IDie _ => False end.
Proof.
  intros Hw Hq. pose proof (hand_contents h f w Hw) as Hc. unfold get_arr. unfold ibind at 1, theobj. unfold ibind at 1. unfold rget.
  unfold ibind at 1. unfold nc_inq_varid, Nc.call. rewrite Hq, Hc. destruct (find_var f x) as [v|] eqn:V; [|exact Hq]. unfold ibind at 1. cbn [rchk iret].
  unfold ibind at 1. destruct (_ =? _)%nat; [exact Logic.I|]. cbn [iret]. unfold ibind at 1.
  unfold nc_get, Nc.call. rewrite Hq, Hc, V. destruct (to_dbl (vr_val v)) as [(l, rng)|]; [|exact Hq].
  destruct (_ <? _)%nat; [exact Logic.I|]. destruct rng; exact Hq.
Qed.
Lemma sgo_try K x k r c : (forall a, kA K k a -> shaped a r c) ->
  sgo K (itry (get_arr S h x k)) (fun _ => onA K k (fun a => shaped a r c)) (fun _ => b = true -> has_numbers f x -> exists l, numbers f x l /\ Z.of_nat (List.length l) <= r * c).
Proof.
  intros Hk w Hw Hq Hi. pose proof (go_try_arr h f K x k r c Hk w Hw Hi) as T. pose proof (go_get_arr h f K x k r c Hk w Hw Hi) as G.
  unfold itry in *. destruct b.
  - specialize (Hq eq_refl). pose proof (queue_get_arr x k w Hw Hq) as C. destruct (get_arr S h x k w) as [a w'|e w'| |] eqn:E; try contradiction; auto.
    + destruct T as (T1 & T2 & _), G as (_ & G2 & _). repeat (split; [solve [auto]|]). intros _ _.
      pose proof (proj1 G2 k) as G3. cbn in G3. destruct (afield_eq_dec k k) as [_|N]; [|congruence]. destruct G3 as ((S1 & S2 & S3) & l & L & t & Et).
      exists l. split; [exact L|]. rewrite Et, app_length in S3. lia.
    + destruct T as (T1 & T2 & _). repeat (split; [solve [auto]|]). intros _ D. exfalso.
      pose proof (calm_get_arr x k D w Hw Hq) as C'. rewrite E in C'. exact C'.
  - destruct (get_arr S h x k w) as [a w'|e w'| |]; auto; destruct T as (T1 & T2 & _); (split; [exact T1|]); (split; [discriminate|]); (split; [exact T2|]); intros N; discriminate N.
Qed.
End Calm.

(** Sizes *)
Lemma ints_short (f : ncfile S) y l n : integers f y l -> Z.of_nat (List.length l) <= n -> ~ more_than f y n.
Proof.
  intros (v & V & C) L (v' & V' & M). rewrite V in V'. injection V' as <-. destruct (vr_val v) as [d|d|d]; [subst; lia| |contradiction].
  assert (E : List.length d = List.length l) by (clear - C; induction C; cbn; congruence). lia.
Qed.
Lemma nums_short (f : ncfile S) y l n : numbers f y l -> Z.of_nat (List.length l) <= n -> ~ more_than f y n.
Proof.
  intros (v & V & C) L (v' & V' & M). rewrite V in V'. injection V' as <-. destruct (vr_val v); [|subst; lia|contradiction].
  subst l. rewrite map_length in L. lia.
Qed.
Lemma begins_len {T} (l : list (option T)) a r c : shaped a r c -> begins l a -> Z.of_nat (List.length l) <= r * c.
Proof. intros (S1 & S2 & S3) (t & E). rewrite E, app_length in S3. lia. Qed.
Lemma ints_begin (f : ncfile S) y (a : narr) r c : shaped a r c /\ (exists l, integers f y l /\ begins l a) -> forall n, n = r * c -> ~ more_than f y n.
Proof. intros (H1 & l & H2 & H3) n ->. eapply ints_short; [exact H2|]. eapply begins_len; eassumption. Qed.
Lemma nums_begin (f : ncfile S) y (a : arr) r c : shaped a r c /\ (exists l, numbers f y l /\ begins l a) -> forall n, n = r * c -> ~ more_than f y n.
Proof. intros (H1 & l & H2 & H3) n ->. eapply nums_short; [exact H2|]. eapply begins_len; eassumption. Qed.
Lemma ints_begin_map (f : ncfile S) y g (a : narr) r c : shaped a r c /\ (exists l, integers f y l /\ begins (map (option_map g) l) a) -> forall n, n = r * c -> ~ more_than f y n.
Proof. intros (H1 & l & H2 & H3) n ->. eapply ints_short; [exact H2|]. rewrite <- (map_length (option_map g) l). eapply begins_len; eassumption. Qed.
Lemma nums_begin_map (f : ncfile S) y g (a : arr) r c : shaped a r c /\ (exists l, numbers f y l /\ begins (map (option_map g) l) a) -> forall n, n = r * c -> ~ more_than f y n.
Proof. intros (H1 & l & H2 & H3) n ->. eapply nums_short; [exact H2|]. rewrite <- (map_length (option_map g) l). eapply begins_len; eassumption. Qed.
Lemma scalar_short (f : ncfile S) y c : (exists l, integers f y l /\ (l = [] \/ l = [c])) -> ~ more_than f y 1.
Proof. intros (l & L & [->| ->]); (eapply ints_short; [exact L|cbn; lia]). Qed.
Lemma first_of (f : ncfile S) y l z : integers f y l -> first_int f y z -> exists t, l = Some z :: t.
Proof.
  intros (v & V & C) (v' & V' & E). rewrite V in V'. injection V' as <-. destruct (vr_val v) as [d|d|d]; [| |contradiction].
  - subst l. destruct d as [|[x|] d]; try contradiction. subst x. eauto.
  - destruct d as [|[x|] d]; try contradiction. inversion C as [|? c ? t N ? Ex Ey]; subst. destruct N as (n & N1 & N2). subst c. rewrite E in N1. injection N1 as <-. eauto.
Qed.
Lemma is_first (f : ncfile S) y z : integers f y [Some z] -> first_int f y z.
Proof.
  intros (v & V & C). exists v. split; [exact V|]. destruct (vr_val v) as [d|d|d]; [subst d; reflexivity| |contradiction].
  inversion C as [|[q|] ? d' ? N M]; subst; [|discriminate N]. destruct N as (n & N1 & N2). injection N2 as ->. exact N1.
Qed.
Lemma first_scalar (f : ncfile S) y c z : (exists l, integers f y l /\ (l = [] \/ l = [c])) -> first_int f y z -> c = Some z.
Proof. intros (l & L & D) E. destruct (first_of f y l z L E) as (t & ->). destruct D as [D|D]; [discriminate D|]. now injection D. Qed.

Lemma go_flt_len h f K x k : go h f K (get_flt S h x k) (fun _ => K) (fun _ => exists l, numbers f x l /\ Z.of_nat (List.length l) <= 1).
Proof.
  intros w Hw Hi. unfold get_flt. unfold ibind at 1, theobj. unfold ibind at 1.
  match goal with |- context [rget S to_dbl h x ?b ?st w] => pose proof (rget_does h f to_dbl x b st w Hw) as R end.
  specialize (R ltac:(intros l w0 H0; eexists; split; [reflexivity|exact H0])).
  destruct (rget _ _ _ _ _ _ w) as [l w'|e w'| |]; auto.
  destruct R as (l0 & w1 & C & L & -> & O1 & E & H'). cbn. cbn in E. injection E as <-. split; [exact H'|]. split; [cbn; rewrite O1; exact Hi|].
  exists l0. split; [now apply converts_numbers|]. cbn in L. lia.
Qed.

Lemma go_getb_val h (f : ncfile S) (K : known) : go h f K (lift (getb B_asym)) (fun _ => K) (fun b => kB K (Some b)).
Proof.
  intros w Hw Hi. unfold lift. cbn. destruct (oB (wO w) B_asym) as [v|] eqn:E; auto. split; [exact Hw|]. split; [exact Hi|].
  destruct Hi as (H1 & H2 & H3 & H4). rewrite E in H4. exact H4.
Qed.

(** The beginning of both readers *)
Lemma starts (b : bool) x f (w : world) t (m : Z -> io unit) (P T : Prop) : (b = false -> T) -> wf_obj (wO w) -> wFS w x = Some (Whole f) -> (b = true -> wQ w = []) ->
  (forall h, sfin h f b start (m h) P T) ->
  match (chatter S (out t [] []) ;;; h <- reader S x ;; m h) w with IOk _ _ => P | IThrow _ _ => T | IUB _ => True | IDie _ => b = false end.
Proof.
  intros HT Wf Hf Hq Hm. unfold ibind at 1, chatter, lift. cbn. destruct (oI (wO w) I_verbose) as [v|]; [|exact Logic.I].
  match goal with |- match match ?r with _ => _ end with _ => _ end => assert (E : exists w1, r = IOk tt w1 /\ wO w1 = wO w /\ wFS w1 = wFS w /\ wQ w1 = wQ w) end.
  { destruct (0 <? v); eexists; (split; [reflexivity|]); auto. }
  destruct E as (w1 & -> & O1 & F1 & Q1). rewrite <- F1 in Hf. rewrite <- Q1 in Hq.
  assert (Hi : forall w2, wO w2 = wO w1 -> inv start (wO w2)).
  { intros w2 ->. rewrite O1. destruct Wf as [WN WA]. repeat split; try apply WN; try apply WA. }
  clear w v O1 F1 Q1 Wf. unfold ibind. destruct b.
  - specialize (Hq eq_refl). unfold reader, ibind, nc_open, nc_inq, Nc.call. rewrite Hq, Hf. cbn. rewrite Hq. cbn.
    match goal with |- match m ?h ?w2 with _ => _ end => specialize (Hm h w2); apply Hm end; [|intros _; reflexivity|now apply Hi].
    unfold hand, handle. cbn. now rewrite Z.eqb_refl.
  - destruct (reader S x w1) as [h w2| | |] eqn:E; try discriminate; auto.
    apply reader_opens in E. destruct E as (f' & X & H2 & O2 & _). rewrite Hf in X. injection X as <-.
    apply (Hm h w2); [exact H2|discriminate|now apply Hi].
Qed.

Ltac known_shape := let H := fresh in intros ? H; cbn in H; first [exact H|exact (proj1 H)].
Ltac rule := lazymatch goal with
  | |- go _ _ _ (get_int _ _ _ _) _ _ => apply go_get_int
  | |- go _ _ _ (get_ints _ _ _ _) _ _ => eapply go_get_ints; known_shape
  | |- go _ _ _ (get_arr _ _ _ _) _ _ => eapply go_get_arr; known_shape
  | |- go _ _ _ (get_local _ _ _ _) _ _ => apply go_get_local
  | |- go _ _ _ (get_local_int _ _ _) _ _ => apply go_get_local_int
  | |- go _ _ _ (getdim _ _ _) _ _ => apply go_getdim
  | |- go _ _ _ (val _ _) _ _ => apply go_val
  | |- go _ _ _ (theobj _) _ _ => apply go_theobj
  | |- go _ _ _ (resize_ints _ _ _) _ _ => apply go_resize_ints; known_shape
  | |- go _ _ _ (resize_arr _ _ _ _) _ _ => apply go_resize_arr; known_shape
  | |- go _ _ _ (new_vec _ _) _ _ => apply go_new_vec
  | |- go _ _ _ (chatter _ _) _ _ => apply go_pure; sp; first [apply spares_elems|apply spares_elems_n|idtac]
  | |- go _ _ _ (lift (getb B_asym)) _ _ => apply go_getb_val
  | |- go _ _ _ (lift (setb B_asym _)) _ _ => apply go_setb
  | |- go _ _ _ (lift (geti _)) _ _ => apply go_geti
  | |- go _ _ _ (lift (seti _ _)) _ _ => apply go_seti
  | |- go _ _ _ (lift (setf _ _)) _ _ => apply go_setf
  | |- go _ _ _ (lift (int_ _)) _ _ => apply go_int
  | |- go _ _ _ (lift (isub _ _)) _ _ => apply go_isub
  | |- go _ _ _ (lift (iadd _ _)) _ _ => apply go_iadd
  | |- go _ _ _ (lift (getv _ _)) _ _ => apply go_pure; sp
  | |- go _ _ _ (lift (fill_vec _ _ _ (fun j => vget _ (j + 1)))) _ _ => apply go_copy; known_shape
  | |- go _ _ _ (lift (fill_vec _ A_s_b _ _)) _ _ => match goal with Hcs : shaped ?cs _ 1 /\ _ |- _ => apply (go_s_b _ _ _ _ cs); known_shape end
  | |- go _ _ _ (lift (bind (getarr _) (neg_arr _))) _ _ => eapply go_neg; let H := fresh in intros ? H; cbn in H; exact H
  | |- go _ _ _ (get_flt _ _ _ _) _ _ => apply go_flt_len
  | |- go _ _ _ (get_mat _ _ _ _ _) _ _ => apply go_get_mat
  | |- go _ _ _ (get_vec _ _ _ _) _ _ => apply go_get_vec
  | |- go _ _ _ (lift (getn _ _)) _ _ => apply go_getn
  | |- go _ _ _ (lift (idiv _ _)) _ _ => apply go_idiv
  end.
Ltac tm := repeat first
  [ apply tame_bind; [|intros ?] | apply tame_if | apply tame_vget | apply tame_vset | apply tame_resize | apply tame_int | apply tame_idiv | apply tame_neg
  | apply tame_elems | apply tame_elems_n | apply tame_fill; intros ? | apply tame_for; intros ? ? | exact Logic.I | progress (intros ?; cbn) ].
Ltac there := match goal with
  | C : _ = true -> booz_readable ?f |- has_ints ?f _ => apply (bc_ints f); [apply C; assumption|cbn; tauto]
  | C : _ = true -> booz_readable ?f |- has_numbers ?f _ => apply (bc_floats f); [apply C; assumption|cbn; tauto]
  | C : _ = true -> booz_readable ?f |- exists n, dim ?f "radius" n => apply (bc_radius f); apply C; assumption
  | C : _ = true -> booz_readable ?f |- exists n, dim ?f "comput_surfs" n => apply (bc_surfs f); apply C; assumption
  | C : _ = true -> wout_readable ?f _ |- has_ints ?f _ => eapply (wc_ints f); [apply C; assumption|cbn; tauto]
  | C : _ = true -> wout_readable ?f _ |- has_numbers ?f _ => eapply (wc_floats f); [apply C; assumption|cbn; tauto]
  | D : _ = true -> forall y, In y _ -> has_numbers ?f y |- has_numbers ?f _ => apply D; [assumption|cbn; tauto]
  end.
Ltac crule := lazymatch goal with
  | |- calm _ _ (get_int _ _ _ _) => apply calm_get_int; there
  | |- calm _ _ (get_ints _ _ _ _) => apply calm_get_ints; there
  | |- calm _ _ (get_arr _ _ _ _) => apply calm_get_arr; there
  | |- calm _ _ (get_flt _ _ _ _) => apply calm_get_flt; there
  | |- calm _ _ (get_local _ _ _ _) => apply calm_get_local; there
  | |- calm _ _ (get_local_int _ _ _) => apply calm_get_local_int; there
  | |- calm _ _ (get_mat _ _ _ _ _) => apply calm_get_mat; there
  | |- calm _ _ (get_vec _ _ _ _) => apply calm_get_vec; there
  | |- calm _ _ (getdim _ _ _) => apply calm_getdim; there
  | |- calm _ _ (val _ _) => apply calm_val
  | |- calm _ _ (theobj _) => apply calm_obj
  | |- calm _ _ (resize_ints _ _ _) => apply calm_resize_ints
  | |- calm _ _ (resize_arr _ _ _ _) => apply calm_resize_arr
  | |- calm _ _ (chatter _ _) => apply calm_chatter; tm
  | |- calm _ _ (new_vec _ _) => apply calm_lift, tame_resize
  | |- calm _ _ (lift _) => apply calm_lift; tm
  end.
Ltac both := first [ eapply sgo_try; known_shape | eapply sgo_of; [rule|let Hb := fresh in intros Hb; crule] ].
Ltac no_throw := solve [auto|let E := fresh in intros E; rewrite E; discriminate].
Ltac f1 := eapply sfin_bind; [no_throw|both|let H := fresh in intros ? H; cbn beta in H |- *].
Ltac r1 := eapply sgo_bind; [both|let H := fresh in intros ? H; cbn beta in H |- *].

Definition booz_fit (b : bool) (f : ncfile S) : Prop := forall a mn ns nb, first_int f "lasym__logical__" a -> first_int f "mnboz_b" mn -> dim f "radius" ns -> dim f "comput_surfs" nb ->
  (forall y n, In (y, n) (booz_room mn ns nb (negb (a =? 0))) -> ~ more_than f y n) /\
  (b = true -> has_numbers f "chi_b" -> ~ more_than f "chi_b" ns).
Ltac size := first [reflexivity|ring|lia|nia].
Ltac by_arr HA k := let G := fresh in pose proof (HA k) as G; cbn in G; eapply nums_begin; [exact G|size].
Ltac by_neg HA k := let G := fresh in pose proof (HA k) as G; cbn in G; eapply nums_begin_map; [exact G|size].
Ltac by_ints HN k := let G := fresh in pose proof (HN k) as G; cbn in G; eapply ints_begin; [exact G|size].
Ltac by_int HI k := let G := fresh in pose proof (HI k) as G; cbn in G; eapply scalar_short; first [exact G|exact (proj1 G)].
Ltac by_flag := match goal with H : forall z, Some ?a = Some z -> integers ?f ?y [Some z] |- ~ more_than ?f ?y _ => eapply ints_short; [exact (H a eq_refl)|cbn; lia] end.
Ltac by_local := match goal with H : exists l, numbers ?f ?y l /\ (List.length l <= List.length (adata ?a))%nat /\ _, N : adata ?a = zrepeat None ?r |- ~ more_than ?f ?y _ =>
  let l := fresh in let L1 := fresh in let L2 := fresh in destruct H as (l & L1 & L2 & _); eapply nums_short; [exact L1|]; rewrite N in L2; unfold zrepeat in L2; rewrite repeat_length in L2; lia end.
Ltac booz_one HA HN HI := lazymatch goal with
  | |- ~ more_than _ "nfp_b" _ => by_int HI I_nfp
  | |- ~ more_than _ "mboz_b" _ => by_int HI I_mboz
  | |- ~ more_than _ "nboz_b" _ => by_int HI I_nboz
  | |- ~ more_than _ "mnboz_b" _ => by_int HI I_mnboz
  | |- ~ more_than _ "ixm_b" _ => by_ints HN N_xm_b
  | |- ~ more_than _ "ixn_b" _ => by_ints HN N_xn_b
  | |- ~ more_than _ "jlist" _ => match goal with Hcs : shaped ?cs _ 1 /\ _ |- _ => eapply ints_begin_map; [exact Hcs|size] end
  | |- ~ more_than _ "phi_b" _ => by_arr HA A_phi
  | |- ~ more_than _ "phip_b" _ => by_arr HA A_phip
  | |- ~ more_than _ "pres_b" _ => by_arr HA A_pres
  | |- ~ more_than _ "bmnc_b" _ => by_arr HA A_bmnc_b
  | |- ~ more_than _ "rmnc_b" _ => by_arr HA A_rmnc_b
  | |- ~ more_than _ "zmns_b" _ => by_arr HA A_zmns_b
  | |- ~ more_than _ "pmns_b" _ => by_neg HA A_numns_b
  | |- ~ more_than _ "gmn_b" _ => by_arr HA A_gmnc_b
  | |- ~ more_than _ "bmns_b" _ => by_arr HA A_bmns_b
  | |- ~ more_than _ "rmns_b" _ => by_arr HA A_rmns_b
  | |- ~ more_than _ "zmnc_b" _ => by_arr HA A_zmnc_b
  | |- ~ more_than _ "pmnc_b" _ => by_neg HA A_numnc_b
  | |- ~ more_than _ "gmns_b" _ => by_arr HA A_gmns_b
  | _ => first [by_flag|by_local]
  end.
Ltac booz_end HA HN HI Ha Hasy :=
  let a := fresh "a" in let mn := fresh "mn" in let ns := fresh "ns" in let nb := fresh "nb" in let Ea := fresh in let Em := fresh in let Er := fresh in let Es := fresh in
  intros a mn ns nb Ea Em Er Es;
  let E := fresh in destruct (first_of _ _ _ _ Ha Ea) as (? & E); injection E as E _; rewrite E in Hasy; clear E;
  let M := fresh in pose proof (HI I_mnboz) as M; cbn in M; let M1 := fresh in let M2 := fresh in destruct M as (M1 & M2);
  let M3 := fresh in pose proof (first_scalar _ _ _ _ M1 Em) as M3; rewrite M2 in M3; injection M3 as M3;
  match goal with H : dim _ "radius" ?q, Er : dim _ "radius" ns |- _ => let R := fresh in assert (R : q = ns) by (unfold dim in *; congruence) end;
  match goal with H : dim _ "comput_surfs" ?q, Es : dim _ "comput_surfs" nb |- _ => let R := fresh in assert (R : q = nb) by (unfold dim in *; congruence) end;
  let P := fresh in pose proof (proj2 (proj2 (proj1 (HA A_phi)))) as P; subst;
  split; [let y := fresh in let n := fresh in let I := fresh in intros y n I; rewrite <- ?Hasy in I; cbn in I;
    repeat destruct I as [I|I]; try contradiction; injection I as <- <-; booz_one HA HN HI
  |let B := fresh in let N := fresh in intros B N;
   match goal with H : _ = true -> has_numbers _ "chi_b" -> _ |- _ => let l := fresh in let L1 := fresh in let L2 := fresh in destruct (H B N) as (l & L1 & L2); eapply nums_short; [exact L1|lia] end].
Theorem booz_fits (b : bool) x f (w : world) : wf_obj (wO w) -> wFS w x = Some (Whole f) -> (b = true -> wQ w = []) -> (b = true -> booz_readable f) ->
  match read_boozmn S x w with IOk _ _ => booz_fit b f | IThrow _ _ => b = false | IUB _ => True | IDie _ => b = false end.
Proof.
  intros Wf Hf Hq Hc. unfold read_boozmn. apply (starts b x f); auto. clear Hf Hq Wf. intros h.
  do 3 f1.
  repeat f1.
  eapply sfin_bind; [no_throw| |].
  { match goal with Ho : inv _ ?o |- _ => pose proof (proj1 (proj2 Ho) N_compute_surfs) as Hj; cbn in Hj; destruct Hj as (Hj1 & Hj2) end.
    eapply sgo_of; [eapply go_minus2; [exact Hj1|exact Hj2]|]. intros Hb. crule. }
  intros cs Hcs. cbn beta in Hcs |- *. eapply sfin_bind; [no_throw|eapply sgo_of; [apply go_setn with (P := fun b => b = cs); reflexivity|intros Hb; crule]|]. intros ? ?. cbn beta.
  repeat f1.
  eapply sfin_bind; [no_throw|eapply sgo_of; [eapply go_setarr with (P := fun b => shaped b _ _ /\ exists l, numbers f "pmns_b" l /\ begins (map (option_map (fneg S)) l) b); eassumption|intros Hb; crule]|]. intros ? ?. cbn beta.
  do 2 f1.
  match goal with H : forall z, ?x = Some z -> integers f "lasym__logical__" _, G : ?x = Some ?a |- _ => pose proof (H a G) as Ha; set (a_ := a) in * end.
  match goal with H : kB _ (Some ?v) |- _ => rename v into asy; cbn in H; injection H as Hasy end.
  destruct asy.
  - assert (D : b = true -> forall y, In y booz_asym -> has_numbers f y).
    { intros Hb. destruct (Hc Hb) as [_ _ _ _ C]. apply (C a_).
      - now apply is_first.
      - intros E. rewrite E in Hasy. discriminate Hasy. }
    eapply sfin_bind; [no_throw| |].
    { repeat r1. eapply sgo_bind; [eapply sgo_of; [eapply go_setarr with (P := fun b => shaped b _ _ /\ exists l, numbers f "pmnc_b" l /\ begins (map (option_map (fneg S)) l) b); eassumption|intros Hb; crule]|]. intros ? ?. cbn beta. both. }
    intros ? ?. cbn beta. repeat f1. apply sfin_close; [|no_throw]. intros o (HA & HN & HI & HB). booz_end HA HN HI Ha Hasy.
  - eapply sfin_bind; [no_throw|repeat r1; both|]. intros ? ?. cbn beta. repeat f1. apply sfin_close; [|no_throw]. intros o (HA & HN & HI & HB). booz_end HA HN HI Ha Hasy.
Qed.

Definition wout_fit (f : ncfile S) (fl : bool) : Prop := forall a ns mn mnq, first_int f "lasym__logical__" a -> first_int f "ns" ns -> first_int f "mnmax" mn -> first_int f "mnmax_nyq" mnq ->
  forall y n, In (y, n) (wout_room ns mn mnq (negb (a =? 0)) fl) -> ~ more_than f y n.
Ltac by_mat := match goal with H : shaped ?a _ _ /\ (exists l, numbers ?f ?y l /\ begins l ?a) |- ~ more_than ?f ?y _ => eapply nums_begin; [exact H|size] end.
Ltac by_flt := match goal with H : exists l, numbers ?f ?y l /\ Z.of_nat (List.length l) <= 1 |- ~ more_than ?f ?y _ =>
  let l := fresh in let L1 := fresh in let L2 := fresh in destruct H as (l & L1 & L2); eapply nums_short; [exact L1|exact L2] end.
Ltac by_list := match goal with H : forall y, In y _ -> ~ more_than ?f y _ |- ~ more_than ?f _ _ => apply H; cbn; tauto end.
Ltac wout_one HN HI := lazymatch goal with
  | |- ~ more_than _ "nfp" _ => by_int HI I_nfp
  | |- ~ more_than _ "mpol" _ => by_int HI I_mpol
  | |- ~ more_than _ "ntor" _ => by_int HI I_ntor
  | |- ~ more_than _ "mnmax" _ => by_int HI I_mnmax
  | |- ~ more_than _ "mnmax_nyq" _ => by_int HI I_mnmax_nyq
  | |- ~ more_than _ "xm" _ => by_ints HN N_xm
  | |- ~ more_than _ "xn" _ => by_ints HN N_xn
  | |- ~ more_than _ "xm_nyq" _ => let G := fresh in pose proof (HN N_xm_nyq) as G; cbn in G; eapply ints_begin; [exact (proj1 G)|size]
  | |- ~ more_than _ "xn_nyq" _ => let G := fresh in pose proof (HN N_xn_nyq) as G; cbn in G; eapply ints_begin; [exact (proj1 G)|size]
  | _ => first [by_mat|by_flag|by_flt]
  end.
Theorem wout_fits (b : bool) x fl f (w : world) : wf_obj (wO w) -> wFS w x = Some (Whole f) -> (b = true -> wQ w = []) -> (b = true -> wout_readable f fl) ->
  match read_wout S x fl w with IOk _ _ => wout_fit f fl | IThrow _ _ => b = true -> wout_fit f fl | IUB _ => True | IDie _ => b = false end.
Proof.
  intros Wf Hf Hq Hc. unfold read_wout. apply (starts b x f); auto; [no_throw|]. clear Hf Hq Wf. intros h.
  do 3 f1.
  repeat f1.
  match goal with H : ?x = Some ?n |- context [get_vec S h "chi" ?n] => rename n into ns0 end.
  match goal with |- sfin _ _ _ ?K _ _ _ => eapply sfin_bind with (K1 := fun _ => K) (Q := fun p => fl = true -> forall y, In y wout_fluxes -> ~ more_than f y ns0); [no_throw| |] end.
  { destruct fl.
    - assert (D : b = true -> forall y, In y wout_fluxes -> has_numbers f y) by (intros Hb; exact (wc_fluxes f true (Hc Hb) eq_refl)).
      repeat r1. eapply sgo_of; [apply go_ret|intros; apply calm_ret]. intros _ y Hin. cbn in Hin.
      repeat destruct Hin as [<-|Hin]; try contradiction; by_mat.
    - eapply sgo_of; [apply go_ret; discriminate|intros; apply calm_ret]. }
  intros (((phip0, chi0), pres0), phi0) HF. cbn beta.
  repeat f1.
  match goal with H : forall z, ?x = Some z -> integers f "lasym__logical__" _, G : ?x = Some ?a |- _ => pose proof (H a G) as Ha; set (a_ := a) in * end.
  match goal with H : kB _ (Some ?v) |- _ => rename v into asy; cbn in H; injection H as Hasy end.
  match goal with H : shaped _ ?p ns0 /\ (exists l, numbers f "rmnc" l /\ _), G : shaped _ ?q ns0 /\ (exists l, numbers f "bmnc" l /\ _) |- _ => rename p into mn0, q into mnq0 end.
  match goal with |- sfin _ _ _ ?K _ _ _ => eapply sfin_bind with (K1 := fun _ => K) (Q := fun p => asy = true ->
    forall y n, In (y, n) (each (mn0 * ns0) ["rmns"; "zmnc"; "lmnc"]%string ++ each (mnq0 * ns0) ["bmns"; "bsubumns"; "bsubvmns"]%string) -> ~ more_than f y n); [no_throw| |] end.
  { destruct asy.
    - assert (D : b = true -> forall y, In y wout_asym -> has_numbers f y).
      { intros Hb. destruct (Hc Hb) as [_ _ _ C]. apply (C a_); [now apply is_first|]. intros E. rewrite E in Hasy. discriminate Hasy. }
      repeat r1. eapply sgo_of; [apply go_ret|intros; apply calm_ret]. intros _ y n Hin. cbn in Hin.
      repeat destruct Hin as [Hin|Hin]; try contradiction; injection Hin as <- <-; by_mat.
    - eapply sgo_of; [apply go_ret; discriminate|intros; apply calm_ret]. }
  intros (((rmns0, zmnc0), lmnc0), ((bmns0, bsubumns0), bsubvmns0)) HS. cbn beta.
  apply sfin_close_lift. intros o (HA & HN & HI & HB).
  intros a1_ ns mn mnq Ea En Em Eq.
  destruct (first_of _ _ _ _ Ha Ea) as (? & E). injection E as E _. rewrite E in Hasy. clear E.
  match goal with H : forall z, ?x = Some z -> integers f "ns" _, G : ?x = Some ns0 |- _ => destruct (first_of _ _ _ _ (H ns0 G) En) as (? & E); injection E as E _ end. subst ns0.
  pose proof (HI I_mnmax) as M. cbn in M. destruct M as (M1 & M2). pose proof (first_scalar _ _ _ _ M1 Em) as M3. rewrite M2 in M3. injection M3 as ->.
  clear M1 M2. pose proof (HI I_mnmax_nyq) as M. cbn in M. destruct M as (M1 & M2). pose proof (first_scalar _ _ _ _ M1 Eq) as M3. rewrite M2 in M3. injection M3 as ->.
  subst. clear M1 M2 HA HB.
  intros y n I. unfold wout_room in I. rewrite !in_app_iff in I.
  destruct I as [I|[I|[I|[I|[I|[I|[I|I]]]]]]].
  7: { destruct (negb _); [|contradiction]. exact (HS eq_refl y n I). }
  7: { destruct fl; [|contradiction]. apply in_map_iff in I. destruct I as (y' & E & I). injection E as <- <-. exact (HF eq_refl y' I). }
  all: cbn in I; repeat destruct I as [I|I]; try contradiction; injection I as <- <-; wout_one HN HI.
Qed.

(** ** The theorems *)
Theorem booz_returned x (w w' : world) : wf_obj (wO w) -> read_boozmn S x w = IOk tt w' -> exists f, wFS w x = Some (Whole f) /\
  forall a mn ns nb, first_int f "lasym__logical__" a -> first_int f "mnboz_b" mn -> dim f "radius" ns -> dim f "comput_surfs" nb ->
  forall y n, In (y, n) (booz_room mn ns nb (negb (a =? 0))) -> ~ more_than f y n.
Proof.
  intros Wf E. destruct (boozmn_stores x w w' Wf E) as (f & Hf & _). exists f. split; [exact Hf|].
  pose proof (booz_fits false x f w Wf Hf) as G. rewrite E in G. intros a mn ns nb E1 E2 E3 E4. apply G; auto; discriminate.
Qed.
Theorem wout_returned x fl (w w' : world) : wf_obj (wO w) -> read_wout S x fl w = IOk tt w' -> exists f, wFS w x = Some (Whole f) /\
  forall a ns mn mnq, first_int f "lasym__logical__" a -> first_int f "ns" ns -> first_int f "mnmax" mn -> first_int f "mnmax_nyq" mnq ->
  forall y n, In (y, n) (wout_room ns mn mnq (negb (a =? 0)) fl) -> ~ more_than f y n.
Proof.
  intros Wf E. destruct (wout_stores x fl w w' Wf E) as (f & Hf & _). exists f. split; [exact Hf|].
  pose proof (wout_fits false x fl f w Wf Hf) as G. rewrite E in G. apply G; discriminate.
Qed.
Theorem booz_overflows x f (w : world) a mn ns nb y n : wf_obj (wO w) -> lucky S w -> wFS w x = Some (Whole f) -> booz_readable f ->
  first_int f "lasym__logical__" a -> first_int f "mnboz_b" mn -> dim f "radius" ns -> dim f "comput_surfs" nb ->
  In (y, n) (booz_room mn ns nb (negb (a =? 0))) \/ y = "chi_b"%string /\ n = ns /\ has_numbers f y -> more_than f y n ->
  exists why, read_boozmn S x w = IUB why.
Proof.
  intros Wf L Hf Hc E1 E2 E3 E4 D M. pose proof (booz_fits true x f w Wf Hf (fun _ => L) (fun _ => Hc)) as G.
  assert (N : booz_fit true f -> False).
  { intros N. destruct (N a mn ns nb E1 E2 E3 E4) as (N1 & N2). destruct D as [D|(-> & -> & D)]; [exact (N1 y n D M)|exact (N2 eq_refl D M)]. }
  destruct (read_boozmn S x w) as [u w'|e w'|why|w']; [elim (N G)|discriminate G|eauto|discriminate G].
Qed.
Theorem wout_overflows x fl f (w : world) a ns mn mnq y n : wf_obj (wO w) -> lucky S w -> wFS w x = Some (Whole f) -> wout_readable f fl ->
  first_int f "lasym__logical__" a -> first_int f "ns" ns -> first_int f "mnmax" mn -> first_int f "mnmax_nyq" mnq ->
  In (y, n) (wout_room ns mn mnq (negb (a =? 0)) fl) -> more_than f y n ->
  exists why, read_wout S x fl w = IUB why.
Proof.
  intros Wf L Hf Hc E1 E2 E3 E4 D M. pose proof (wout_fits true x fl f w Wf Hf (fun _ => L) (fun _ => Hc)) as G.
  assert (N : wout_fit f fl -> False) by (intros N; exact (N a ns mn mnq E1 E2 E3 E4 y n D M)).
  destruct (read_wout S x fl w) as [u w'|e w'|why|w']; [elim (N G)|elim (N (G eq_refl))|eauto|discriminate G].
Qed.
(** Reading a complete file throws nothing of its own: read_boozmn returns, or its behaviour is undefined. *)
Theorem booz_calm x f (w : world) : wf_obj (wO w) -> lucky S w -> wFS w x = Some (Whole f) -> booz_readable f ->
  (exists w', read_boozmn S x w = IOk tt w') \/ (exists why, read_boozmn S x w = IUB why).
Proof.
  intros Wf L Hf Hc. pose proof (booz_fits true x f w Wf Hf (fun _ => L) (fun _ => Hc)) as G.
  destruct (read_boozmn S x w) as [[] w'|e w'|why|w']; [eauto|discriminate G|eauto|discriminate G].
Qed.
End Proof.

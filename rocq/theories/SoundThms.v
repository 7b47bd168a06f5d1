(** C80: proofs. *)
From Coq Require Import ZArith List String Bool Lia.
From Verif Require Import Scalar Prog Model Wp Func Step FuncExt Vmec Nc NcModel Py Frame FrameThms Sound.
Import ListNotations.
Local Open Scope Z_scope.

Section Any.
Context {S : Scalar}.
Lemma sound_incs i j (l : list (afield * F S)) : sound (incs S i j l) any.
Proof.
  induction l as [|(f, x) l IH]; cbn [incs]; [exact Logic.I|]. apply sound_then.
  - unfold incm. apply sound_then; [apply sound_getm|]. intros y. apply sound_putm.
  - intros _. exact IH.
Qed.
Lemma sound_vet_cols ns l : sound (vet_cols S ns l) any.
Proof. unfold vet_cols. induction l as [|x l IH]; cbn [fold_right]; [exact Logic.I|]. apply sound_then; [|intros; exact IH]. unfold reject. destruct (ne _ _); exact Logic.I. Qed.
Lemma sound_vet_rows l : sound (vet_rows S l) any.
Proof. unfold vet_rows. induction l as [|x l IH]; cbn [fold_right]; [exact Logic.I|]. apply sound_then; [|intros; exact IH]. unfold reject. destruct (ne _ _); exact Logic.I. Qed.
End Any.

Ltac sa1 := lazymatch goal with
  | |- sound (bind _ _) _ => apply sound_then; [|intros ?]
  | |- sound (for_ _ _ _ _) any => apply sound_for; [exact Logic.I|intros ? ? _]
  | |- sound (Ret _) any => exact Logic.I
  | |- sound (Throw _) _ => exact Logic.I
  | |- sound (UB _) _ => exact Logic.I
  | |- sound (if ?c then _ else _) _ => destruct c
  | |- sound (match ?x with pair _ _ => _ end) _ => destruct x
  | |- sound (geti _) any => intros ?; exact Logic.I
  | |- sound (getb _) any => intros ?; exact Logic.I
  | |- sound (getn _ _) any => intros ?; exact Logic.I
  | |- sound (getv _ _) any => intros ?; exact Logic.I
  | |- sound (getarr _) any => intros ? ?; exact Logic.I
  | |- sound (sizen _) any => intros ?; exact Logic.I
  | |- sound (out _ _ _) any => exact Logic.I
  | |- sound (seti _ _) any => exact Logic.I
  | |- sound (setb _ _) any => exact Logic.I
  | |- sound (setf _ _) any => exact Logic.I
  | |- sound (putv _ _ _) any => exact Logic.I
  | |- sound (putm _ _ _ _) any => apply sound_putm
  | |- sound (getm _ _ _) any => apply sound_getm
  | |- sound (vget _ _) any => apply sound_vget
  | |- sound (vset _ _ _) any => apply sound_vset_any
  | |- sound (vinc _ _ _) any => apply sound_vinc
  | |- sound (mget _ _ _) any => apply sound_mget
  | |- sound (mset _ _ _ _) any => apply sound_mset_any
  | |- sound (zeros _ _ _) any => apply sound_zeros_any
  | |- sound (resize _ _ _) any => apply sound_resize_any
  | |- sound (iadd _ _) any => apply sound_int
  | |- sound (isub _ _) any => apply sound_int
  | |- sound (imul _ _) any => apply sound_int
  | |- sound (iabs _) any => apply sound_int
  | |- sound (int_ _) any => apply sound_int
  | |- sound (idiv _ _) any => apply sound_idiv
  | |- sound (irem _ _) any => apply sound_irem
  | |- sound (vet_cols _ _ _) any => apply sound_vet_cols
  | |- sound (vet_rows _ _) any => apply sound_vet_rows
  | |- sound (incs _ _ _ _) any => apply sound_incs
  | |- sound (let _ := _ in _) _ => cbv zeta
  end.
Ltac sa := repeat sa1.

Section Thms.
Context {S : Scalar}.
Notation obj := (obj S).
Notation world := (world S).
Notation prog := (prog S).
Notation io := (io S).

(** ** init *)
Definition tables (t : trig4 S) : Prop := wf_arr (tcosm S t) /\ wf_arr (tsinm S t) /\ wf_arr (tcosn S t) /\ wf_arr (tsinn S t).
Ltac tb := split; [|split; [|split]]; cbn; assumption.
Ltac ms := apply (sound_bind _ _ wf_arr); [apply sound_mset; [apply wf_aput|assumption]|intros ? ?].
Ltac mg := apply sound_then; [first [apply sound_vget|apply sound_mget]|intros ?].
Lemma sound_first theta t : tables t -> sound (it_first S theta t) tables.
Proof.
  intros Ht. apply sound_for; [exact Ht|]. intros j s (H1 & H2 & H3 & H4). ms. ms. mg. ms. ms. tb.
Qed.
Lemma sound_second theta zeta a b t : tables t -> sound (it_second S theta zeta a b t) tables.
Proof.
  intros Ht. unfold it_second. destruct (1 <=? a); [|exact Ht].
  apply sound_for; [exact Ht|]. intros j s (H1 & H2 & H3 & H4). mg. ms. ms. tb.
Qed.
Lemma sound_rec n m (cs : arr S * arr S) : wf_arr (fst cs) -> wf_arr (snd cs) -> sound (it_rec S n m cs) (fun cs => wf_arr (fst cs) /\ wf_arr (snd cs)).
Proof.
  intros Hc Hs. apply sound_for; [split; assumption|]. intros i s H. apply sound_for; [exact H|].
  intros j (c, d) (H1 & H2). cbn [fst snd] in *. mg. mg. mg. mg. ms. mg. mg. mg. mg. ms. split; assumption.
Qed.
Lemma sound_trig theta zeta t a b c : tables t -> sound (init_trig S theta zeta t a b c) tables.
Proof.
  intros Ht. unfold init_trig. apply (sound_bind _ _ tables); [now apply sound_first|]. intros t1 H1.
  apply (sound_bind _ _ tables); [now apply sound_second|]. intros t2 (H2 & H3 & H4 & H5).
  eapply sound_bind; [apply sound_rec; assumption|]. intros p (P1 & P2).
  eapply sound_bind; [apply sound_rec; assumption|]. intros q (Q1 & Q2). tb.
Qed.
Definition columns {T U} (p : array T * array U) : Prop := column (fst p) /\ column (snd p).
Lemma sound_modes a b c d : sound (init_modes S a b c d) columns.
Proof.
  unfold init_modes. eapply sound_bind; [apply sound_zeros|]. intros xm Hm. eapply sound_bind; [apply sound_zeros|]. intros xn Hn.
  sa1; [sa|]. apply (sound_bind _ _ (fun st : narr * narr * Z => columns (fst st))).
  - apply sound_for; [split; assumption|]. intros m st Hst. cbv zeta. apply sound_for; [exact Hst|].
    intros n ((x, y), j) (Hx & Hy). cbn [fst snd] in *.
    apply (sound_bind _ _ column); [apply sound_vset; [apply column_aput|assumption]|]. intros x' Hx'. sa1; [sa|].
    apply (sound_bind _ _ column); [apply sound_vset; [apply column_aput|assumption]|]. intros y' Hy'. sa1; [sa|].
    split; assumption.
  - intros ((x, y), j) H. exact H.
Qed.
Lemma sound_grid a b c d : sound (init_grid S a b c d) columns.
Proof.
  unfold init_grid. sa1; [sa|]. eapply sound_bind; [apply sound_zeros|]. intros xm Hm. eapply sound_bind; [apply sound_zeros|]. intros xn Hn.
  apply (sound_bind _ _ (fun st : arr S * arr S * Z => columns (fst st))).
  - apply sound_for; [split; assumption|]. intros m st Hst. apply sound_for; [exact Hst|].
    intros n ((x, y), j) (Hx & Hy). cbn [fst snd] in *.
    apply (sound_bind _ _ column); [apply sound_vset; [apply column_aput|assumption]|]. intros x' Hx'.
    apply (sound_bind _ _ column); [apply sound_vset; [apply column_aput|assumption]|]. intros y' Hy'. sa1; [sa|].
    split; assumption.
  - intros ((x, y), j) H. exact H.
Qed.
Lemma column_fits f (a : arr S) : column a -> fits_in f a.
Proof. intros (W & E). split; auto. Qed.
Lemma wf_fits f (a : arr S) : is_vector f = false -> wf_arr a -> fits_in f a.
Proof. intros H W. split; [exact W|]. rewrite H. discriminate. Qed.
Lemma sound_set f (a : arr S) : fits_in f a -> sound (setarr f a) any.
Proof. intros H. split; [exact H|exact Logic.I]. Qed.
Lemma sound_setn f (a : narr) : column a -> sound (@setn S f a) any.
Proof. intros H. split; [exact H|exact Logic.I]. Qed.
Ltac fits := first [apply column_fits; eassumption|apply wf_fits; [reflexivity|first [assumption|eapply wide_wf; eassumption]]].
Ltac si1 := lazymatch goal with
  | |- sound (bind (zeros _ _ _) _) _ => eapply sound_bind; [apply sound_zeros|intros ? ?]
  | |- sound (bind (init_modes _ _ _ _ _) _) _ => eapply sound_bind; [apply sound_modes|intros [? ?] [? ?]; cbn [fst snd] in *]
  | |- sound (bind (init_grid _ _ _ _ _) _) _ => eapply sound_bind; [apply sound_grid|intros [? ?] [? ?]; cbn [fst snd] in *]
  | |- sound (bind (init_trig _ _ _ _ _ _ _) _) _ =>
      eapply sound_bind; [apply sound_trig; split; [|split; [|split]]; cbn; eapply wide_wf; eassumption|intros ? (? & ? & ? & ?)]
  | |- sound (setarr _ _) any => apply sound_set; fits
  | |- sound (setn _ _) any => apply sound_setn; assumption
  | |- sound (bind (getarr _) _) _ => idtac
  | |- sound (bind (for_ _ _ _ _) _) _ => idtac
  | _ => sa1
  end.
Lemma sound_init : sound (init S) any.
Proof.
  unfold init. do 200 (try si1).
  all: lazymatch goal with |- sound (bind (getarr _) _) _ => idtac end.
  all: apply (sound_bind _ _ (fits_in A_s_b)); [intros ? H'; exact H'|intros sb (Wsb & _)];
    eapply sound_bind; [apply sound_resize; exact Wsb|intros sb1 Hs1];
    apply (sound_bind _ _ column);
    [apply sound_for; [exact Hs1|intros j s Hs; sa1; [sa|]; sa1; [sa|]; apply sound_vset; [apply column_aput|exact Hs]]|intros sb2 Hs2].
  all: repeat (lazymatch goal with |- sound (bind (for_ _ _ _ _) _) _ => fail | _ => si1 end).
  all: apply (sound_bind _ _ columns);
    [apply sound_for; [split; assumption|intros j (x, y) (Hx & Hy); cbn [fst snd] in *; sa1; [sa|];
       apply (sound_bind _ _ column); [apply sound_vset; [apply column_aput|exact Hx]|intros x' Hx']; sa1; [sa|];
       apply (sound_bind _ _ column); [apply sound_vset; [apply column_aput|exact Hy]|intros y' Hy']; split; assumption]
    |intros (x, y) (Hx & Hy); cbn [fst snd] in *].
  all: repeat si1.
Qed.

(** ** run *)
Lemma sound_trig_any theta zeta t a b c : sound (init_trig S theta zeta t a b c) any.
Proof. unfold init_trig, it_first, it_second, it_rec. sa. Qed.
Lemma sound_vexpr n v (e : Z -> prog (F S)) : (forall j, sound (e j) any) -> sound (vexpr S n v e) any.
Proof. intros H. unfold vexpr. apply sound_for; [exact Logic.I|]. intros j a _. apply sound_then; [apply H|]. intros; apply sound_vset_any. Qed.
Lemma sound_angles asy js jb n : sound (surface_angles S asy js jb n) any.
Proof.
  unfold surface_angles. sa.
  - unfold transp. sa.
  - unfold vcoords_rz. sa.
  - unfold vcoords_w. sa.
  - unfold harfun. sa; apply sound_vexpr; intros; sa.
Qed.
Lemma sound_surface jb : sound (surface_solve S jb) any.
Proof.
  unfold surface_solve. sa; try apply sound_trig_any; try apply sound_angles.
  - unfold half_weights, halve. sa.
  - apply sound_vexpr. intros; sa.
  - unfold accumulate. sa.
  - unfold check_accuracy, check_indices, at4, check_sum. sa. apply sound_trig_any.
Qed.
Lemma sound_bx_run : sound (bx_run S) any.
Proof. unfold bx_run. sa; [unfold run_head; sa; apply sound_init|apply sound_surface]. Qed.

(** ** init_from_vmec *)
Lemma sound_member f : sound (@getarr S f) (fits_in f).
Proof. intros a H. exact H. Qed.
Lemma sound_resize_member f r c : (is_vector f = true -> c = 1) -> sound (resize_member S f r c) any.
Proof.
  intros H. unfold resize_member. eapply sound_bind; [apply sound_member|]. intros a (W & _).
  eapply sound_bind; [apply sound_resize; exact W|]. intros b Hb. apply sound_set. now apply (wide_fits f c).
Qed.
Lemma sound_fill f n x : (forall j, sound (x j) any) -> sound (fill_vec S f n x) any.
Proof.
  intros Hx. unfold fill_vec. eapply sound_bind; [apply sound_member|]. intros a Ha.
  apply (sound_bind _ _ (fits_in f)); [|intros; now apply sound_set].
  apply sound_for; [exact Ha|]. intros j s Hs. apply sound_then; [apply Hx|]. intros y. apply sound_vset; [apply fits_aput|exact Hs].
Qed.
Lemma sound_drop_first f r n x : sound (drop_first S f r n x) any.
Proof.
  unfold drop_first. eapply sound_bind; [apply sound_member|]. intros a Ha.
  apply (sound_bind _ _ (fits_in f)); [|intros; now apply sound_set].
  apply sound_for; [exact Ha|]. intros j s Hs. apply sound_for; [exact Hs|]. intros k t Ht.
  apply sound_then; [apply sound_mget|]. intros y. apply sound_mset; [apply fits_aput|exact Ht].
Qed.
Lemma sound_interp f m n x y z : sound (interp S f m n x y z) any.
Proof.
  unfold interp. eapply sound_bind; [apply sound_member|]. intros a Ha.
  apply (sound_bind _ _ (fits_in f)); [|intros; now apply sound_set].
  apply sound_for; [exact Ha|]. intros j s Hs. sa1; [sa|]. sa1; [sa|]. destruct (_ =? 0).
  - apply sound_for; [exact Hs|]. intros k t Ht. sa1; [sa|]. sa1; [sa|]. apply sound_mset; [apply fits_aput|exact Ht].
  - apply (sound_bind _ _ (fits_in f)).
    + apply sound_for; [exact Hs|]. intros k t Ht. do 5 (sa1; [solve [sa]|]). apply sound_mset; [apply fits_aput|exact Ht].
    + intros b Hb. destruct (_ =? 1); [|exact Hb]. do 5 (sa1; [solve [sa]|]). apply sound_mset; [apply fits_aput|exact Hb].
Qed.
Lemma sound_elems_n f : sound (elems_n S f) any.
Proof. unfold elems_n. sa. Qed.
Lemma sound_elems {T} (a : array T) : sound (elems S a) any.
Proof. unfold elems. sa. Qed.
Ltac sv := repeat first [progress sa
  | apply sound_resize_member; intros E; first [reflexivity|discriminate E] | apply sound_fill; intros ? | apply sound_drop_first | apply sound_interp
  | apply sound_elems | apply sound_elems_n | unfold reject; sa1 ].
Lemma sound_profiles v n : sound (store_profiles S v n) any.
Proof.
  unfold store_profiles. do 3 (apply sound_then; [solve [sv]|intros ?]).
  eapply sound_bind; [apply sound_zeros|]. intros b Hb. apply (sound_bind _ _ column); [|intros; now apply sound_setn].
  apply sound_for; [exact Hb|]. intros j s Hs. apply sound_vset; [apply column_aput|exact Hs].
Qed.
Lemma sound_vmec v : sound (init_from_vmec S v) any.
Proof.
  unfold init_from_vmec. sv; try apply sound_profiles.
  - unfold vet. sv.
  - unfold store_half. sv.
  - unfold report. sv.
  - unfold radial_grids. sv.
Qed.

(** ** Files *)
Definition tends {A} (m : io A) (Q : A -> Prop) : Prop := forall w : world, tidy (wO w) ->
  match m w with IOk a w' => tidy (wO w') /\ Q a | IThrow _ w' => tidy (wO w') | IUB _ => True | IDie w' => tidy (wO w') end.
Lemma tends_bind {A B} (m : io A) (k : A -> io B) P Q : tends m P -> (forall a, P a -> tends (k a) Q) -> tends (ibind m k) Q.
Proof.
  intros Hm Hk w T. specialize (Hm w T). unfold ibind. destruct (m w) as [a w'|?|?|?]; auto. apply Hk; apply Hm.
Qed.
Lemma tends_then {A B} (m : io A) (k : A -> io B) Q : tends m any -> (forall a, tends (k a) Q) -> tends (ibind m k) Q.
Proof. intros Hm Hk. apply (tends_bind _ _ any); auto. Qed.
Lemma tends_lift {A} (p : prog A) Q : sound p Q -> tends (lift p) Q.
Proof.
  intros H w T. pose proof (sound_run p Q (wO w) H T) as G. unfold lift. destruct (run p (wO w)); auto.
Qed.
Lemma same_tidy (o o' : obj) : same [] o o' -> tidy o -> tidy o'.
Proof.
  intros H [N A]. constructor; intros f.
  - pose proof (H (MN f) (fun x => x)) as E. cbn in E. rewrite E. apply N.
  - pose proof (H (MA f) (fun x => x)) as E. cbn in E. rewrite E. apply A.
Qed.
Lemma tends_quiet {A} (m : io A) : quiet [] m -> tends m any.
Proof.
  intros H w T. specialize (H w). destruct (m w); auto; try split; try exact Logic.I; eapply same_tidy; eauto.
Qed.
Lemma tends_obj : tends (theobj S) tidy.
Proof. intros w T. split; exact T. Qed.
Lemma get_len {T} conv h x (buf : list (option T)) w :
  match @nc_get S T conv h x buf w with IOk (Good (_, l)) _ => List.length l = List.length buf | _ => True end.
Proof.
  unfold nc_get, Nc.call. destruct (wQ w) as [|[|m|] q]; cbv beta iota; try exact Logic.I.
  all: (destruct (contents _ h) as [f|]; [|reflexivity]; destruct (find_var f x) as [v|]; [|reflexivity];
    destruct (conv (vr_val v)) as [[l rng]|]; [|reflexivity]; destruct (_ <? _)%nat eqn:E; [exact Logic.I|];
    apply Nat.ltb_ge in E; rewrite app_length, skipn_length; lia).
Qed.
(** Starting from an object with the members of [o0] *)
Definition from (o0 : obj) {A} (m : io A) (Q : A -> Prop) : Prop := forall w : world, same [] o0 (wO w) -> tidy (wO w) ->
  match m w with IOk a w' => tidy (wO w') /\ Q a | IThrow _ w' => tidy (wO w') | IUB _ => True | IDie w' => tidy (wO w') end.
Definition held {A} (m : io A) (P : A -> Prop) : Prop := quiet [] m /\ forall w, match m w with IOk a _ => P a | _ => True end.
Lemma held_any {A} (m : io A) : quiet [] m -> held m any.
Proof. intros H. split; [exact H|]. intros w. destruct (m w); exact Logic.I. Qed.
Lemma held_bind o0 {A B} (m : io A) (k : A -> io B) P Q : held m P -> (forall a, P a -> from o0 (k a) Q) -> from o0 (ibind m k) Q.
Proof.
  intros (Hq & Hp) Hk w Hs Ht. specialize (Hq w). specialize (Hp w). unfold ibind.
  destruct (m w) as [a w'|? w'|?|w']; try exact Logic.I; try (eapply same_tidy; eauto; fail).
  apply (Hk a Hp).
  - intros y Hy. specialize (Hs y Hy). specialize (Hq y Hy). destruct y; cbn in *; congruence.
  - eapply same_tidy; eauto.
Qed.
Lemma from_tends o0 {A} (m : io A) Q : tends m Q -> from o0 m Q.
Proof. intros H w _ T. exact (H w T). Qed.
Lemma from_rget {T} conv h x (buf : list (option T)) store o0 :
  (forall l, List.length l = List.length buf -> from o0 (store l) any) -> from o0 (rget S conv h x buf store) any.
Proof.
  intros Hst. unfold rget. eapply held_bind; [apply held_any, quiet_inq_varid|]. intros c _.
  eapply held_bind; [apply held_any, quiet_rchk|]. intros z _.
  eapply held_bind; [apply held_any; destruct (_ =? 0)%nat; [apply quiet_ub|apply quiet_ret]|]. intros _ _.
  apply (held_bind _ _ _ (fun c => match c with Good (_, l) => List.length l = List.length buf | Err _ => True end)).
  { split; [apply quiet_get|]. intros w. pose proof (get_len conv h x buf w) as G.
    destruct (nc_get conv h x buf w) as [[m|[e l]] w'|?|?|?]; auto. }
  intros c' Hc. apply (held_bind _ _ _ (fun p => List.length (snd p) = List.length buf)).
  { split; [apply quiet_rchk|]. intros w. destruct c' as [m|[e l]]; cbn; auto. }
  intros (e, l) Hl w Hs Ht. unfold ibind. specialize (Hst l Hl w Hs Ht). destruct (store l w) as [u w'|?|?|?]; auto.
  apply tends_quiet; [|apply Hst]. destruct e; [apply quiet_rerr|apply quiet_ret].
Qed.
Lemma tends_get_arr h x f : tends (get_arr S h x f) any.
Proof.
  intros w T. unfold get_arr. unfold ibind at 1. unfold theobj at 1.
  assert (G : from (wO w) (ibind (rget S to_dbl h x (adata (oA (wO w) f))
     (fun l => ibind (theobj S) (fun o => setobj S (updA o f (mkArr (arows (oA o f)) (acols (oA o f)) l))))) (fun _ => iret tt)) any).
  { intros v Hs Tv.
    assert (R : from (wO w) (rget S to_dbl h x (adata (oA (wO w) f))
       (fun l => ibind (theobj S) (fun o => setobj S (updA o f (mkArr (arows (oA o f)) (acols (oA o f)) l))))) any).
    { apply from_rget. intros l Hl u Hu Tu. cbn. split; [|exact Logic.I]. apply tidy_updA; [exact Tu|].
      destruct Tu as [_ A]. destruct (A f) as (W & E). split; [|exact E].
      pose proof (Hu (MA f) (fun y => y)) as Ef. cbn in Ef. unfold wf_arr in *. cbn. rewrite Hl. rewrite Ef in W. rewrite Ef. exact W. }
    specialize (R v Hs Tv). unfold ibind at 1. destruct (rget _ _ _ _ _ _ v); auto. }
  apply G; [intros y _; destruct y; reflexivity|exact T].
Qed.
Lemma tends_get_ints h x f : tends (get_ints S h x f) any.
Proof.
  intros w T. unfold get_ints. unfold ibind at 1. unfold theobj at 1.
  assert (G : from (wO w) (ibind (rget S to_int h x (adata (oN (wO w) f))
     (fun l => ibind (theobj S) (fun o => setobj S (updN o f (mkArr (arows (oN o f)) (acols (oN o f)) l))))) (fun _ => iret tt)) any).
  { intros v Hs Tv.
    assert (R : from (wO w) (rget S to_int h x (adata (oN (wO w) f))
       (fun l => ibind (theobj S) (fun o => setobj S (updN o f (mkArr (arows (oN o f)) (acols (oN o f)) l))))) any).
    { apply from_rget. intros l Hl u Hu Tu. cbn. split; [|exact Logic.I]. apply tidy_updN; [exact Tu|].
      destruct Tu as [N _]. destruct (N f) as (W & E). split; [|exact E].
      pose proof (Hu (MN f) (fun y => y)) as Ef. cbn in Ef. unfold wf_arr in *. cbn. rewrite Hl. rewrite Ef in W. rewrite Ef. exact W. }
    specialize (R v Hs Tv). unfold ibind at 1. destruct (rget _ _ _ _ _ _ v); auto. }
  apply G; [intros y _; destruct y; reflexivity|exact T].
Qed.
Lemma tends_rget {T} conv h x (buf : list (option T)) store : (forall l, tends (store l) any) -> tends (rget S conv h x buf store) any.
Proof.
  intros H w T0. apply (from_rget conv h x buf store (wO w)); [|intros y _; destruct y; reflexivity|exact T0].
  intros l _. apply from_tends, H.
Qed.
Lemma tends_get_int h x f : tends (get_int S h x f) any.
Proof.
  apply (tends_bind _ _ tidy); [apply tends_obj|]. intros o _. apply tends_then; [|intros ? w T; split; [exact T|exact Logic.I]].
  apply tends_rget. intros l w T. cbn. split; [now apply tidy_updI|exact Logic.I].
Qed.
Lemma tends_get_flt h x f : tends (get_flt S h x f) any.
Proof.
  apply (tends_bind _ _ tidy); [apply tends_obj|]. intros o _. apply tends_then; [|intros ? w T; split; [exact T|exact Logic.I]].
  apply tends_rget. intros l w T. cbn. split; [now apply tidy_updF|exact Logic.I].
Qed.
Lemma tends_resize_ints f n : tends (resize_ints S f n) any.
Proof.
  apply (tends_bind _ _ tidy); [apply tends_obj|]. intros o To.
  eapply tends_bind; [apply tends_lift, sound_resize; apply (tidy_N _ To f)|]. intros a Ha. apply tends_lift. now apply sound_setn.
Qed.
Lemma sound_neg (a : arr S) : wf_arr a -> sound (neg_arr S a) wf_arr.
Proof.
  intros W. unfold neg_arr. apply (sound_bind _ _ wf_arr); [|intros b Hb; exact Hb].
  apply sound_for.
  - unfold wf_arr, asize, zrepeat in *. cbn. rewrite repeat_length. nia.
  - intros j s Hs. sa1; [sa|]. apply sound_vset; [apply wf_aput|exact Hs].
Qed.
Lemma sound_neg_any (a : arr S) : sound (neg_arr S a) any.
Proof. unfold neg_arr. sa. Qed.
Lemma tends_try (m : io unit) : tends m any -> tends (itry m) any.
Proof. intros H w T. specialize (H w T). unfold itry. destruct (m w); auto. split; [exact H|exact Logic.I]. Qed.
Ltac tq1 := lazymatch goal with
  | |- tends (itry _) any => apply tends_try
  | |- tends (ibind (theobj _) _) _ => apply (tends_bind _ _ tidy); [apply tends_obj|intros ? ?]
  | |- tends (ibind _ _) _ => apply tends_then; [|intros ?]
  | |- tends (get_int _ _ _ _) any => apply tends_get_int
  | |- tends (get_flt _ _ _ _) any => apply tends_get_flt
  | |- tends (get_ints _ _ _ _) any => apply tends_get_ints
  | |- tends (get_arr _ _ _ _) any => apply tends_get_arr
  | |- tends (resize_ints _ _ _) any => apply tends_resize_ints
  | |- tends (resize_arr _ _ _ _) any => apply tends_lift; sv
  | |- tends (if ?c then _ else _) any => destruct c
  | |- tends (match ?x with pair _ _ => _ end) any => destruct x
  | |- tends (let _ := _ in _) any => cbv zeta
  | |- tends (lift (init_from_vmec _ _)) any => apply tends_lift, sound_vmec
  | |- tends (lift (bx_run _)) any => apply tends_lift, sound_bx_run
  | |- tends (lift _) any => apply tends_lift; solve [sv]
  | |- tends (chatter _ _) any => apply tends_lift; solve [sv]
  | |- tends (get_vec _ _ _ _) any => unfold get_vec
  | |- tends (get_mat _ _ _ _ _) any => unfold get_mat
  | |- tends (new_vec _ _) any => apply tends_lift; sa
  | |- tends (new_mat _ _ _) any => apply tends_lift; sa
  | |- tends (zero_vec _ _) any => apply tends_lift; sa
  | |- tends _ any => apply tends_quiet;
      first [apply quiet_ret|apply quiet_ub|apply quiet_throw|apply quiet_reader|apply quiet_getdim|apply quiet_rclose
            |apply quiet_get_local_int|apply quiet_get_local|apply quiet_val]
  end.
Lemma tends_wout x fl : tends (read_wout S x fl) any.
Proof. unfold read_wout. repeat tq1. Qed.
Lemma tends_negated {A} f (k : unit -> io A) Q : is_vector f = false -> (forall u, tends (k u) Q) ->
  tends (ibind (lift (bind (getarr f) (neg_arr S))) (fun p => ibind (lift (setarr f p)) k)) Q.
Proof.
  intros Hf Hk. apply (tends_bind _ _ wf_arr).
  - apply tends_lift. eapply sound_bind; [apply sound_member|]. intros a (W & _). now apply sound_neg.
  - intros p Hp. apply tends_then; [|exact Hk]. apply tends_lift, sound_set. now apply wf_fits.
Qed.
Lemma tends_boozmn x : tends (read_boozmn S x) any.
Proof.
  unfold read_boozmn.
  repeat lazymatch goal with
  | |- tends (ibind (lift (bind (getarr _) (neg_arr _))) _) _ => apply tends_negated; [reflexivity|intros _]
  | H : tidy ?o |- tends (ibind (lift (for_ _ _ (oN ?o _) _)) _) _ =>
      apply (tends_bind _ _ column);
      [apply tends_lift, sound_for; [apply (tidy_N _ H)|intros j s Hs; sa1; [sa|]; sa1; [sa|]; apply sound_vset; [apply column_aput|exact Hs]]
      |intros cs Hcs; apply tends_then; [apply tends_lift, sound_setn; exact Hcs|intros _]]
  | _ => tq1
  end.
Qed.
Lemma tends_write version x : tends (write_boozmn S version x) any.
Proof.
  unfold write_boozmn.
  repeat lazymatch goal with
  | |- tends (put _ _ _ _ _ _ _ _) any => apply tends_quiet, quiet_put
  | |- tends (put_string _ _ _ _ _ _) any => apply tends_quiet, quiet_put_string
  | |- tends (put_ints _ _ _ _ _ _ _) any => apply tends_quiet, quiet_put_ints
  | |- tends (put_arr _ _ _ _ _ _ _) any => apply tends_quiet, quiet_put_arr
  | |- tends (put_mat _ _ _ _ _ _) any => apply tends_quiet, quiet_put_mat
  | |- tends (put_local_mat _ _ _ _ _ _) any => apply tends_quiet, quiet_put_local_mat
  | |- tends (wdim _ _ _ _) any => apply tends_quiet, quiet_wdim
  | |- tends (new_writer _ _) any => apply tends_quiet, quiet_new_writer
  | |- tends (write_and_close _ _ _) any => apply tends_quiet, quiet_wac
  | |- tends (prepend_zero _ _ _) any => apply tends_quiet, quiet_prepend
  | |- tends (lift (bind (getarr _) (neg_arr _))) any => apply tends_lift; sa1; [sa|apply sound_neg_any]
  | _ => tq1
  end.
Qed.
Lemma column_tab n (g : Z -> Z) : 0 <= n -> column (tab n g).
Proof. intros H. split; [eapply vec_is_wf; now apply tab_is|reflexivity]. Qed.
Lemma tends_exec version (c : call S) : tends (exec version c) any.
Proof.
  destruct c; unfold exec.
  - intros w _. split; [apply tidy_new|exact Logic.I].
  - destruct (rw_int f); [|apply tends_quiet, quiet_throw]. destruct (in_int v); [|apply tends_quiet, quiet_throw]. apply tends_lift. exact Logic.I.
  - destruct (rw_bool f); [|apply tends_quiet, quiet_throw]. apply tends_lift. exact Logic.I.
  - destruct (rw_flt f); [|apply tends_quiet, quiet_throw]. apply tends_lift. exact Logic.I.
  - destruct (rw_ints f); [|apply tends_quiet, quiet_throw]. apply tends_lift, sound_setn. apply column_tab; lia.
  - destruct (rw_arr f); [|apply tends_quiet, quiet_throw]. destruct (is_vector f && negb (c =? 1)%nat) eqn:E; [apply tends_quiet, quiet_throw|].
    apply tends_lift, sound_set. split.
    + eapply mat_is_wf. apply tabm_is; lia.
    + intros Ef. rewrite Ef in E. cbn in E. apply negb_false_iff, Nat.eqb_eq in E. subst c. reflexivity.
  - apply tends_wout.
  - apply tends_lift, sound_vmec.
  - apply tends_lift, sound_bx_run.
  - apply tends_write.
  - apply tends_boozmn.
  - intros w T. split; [exact T|exact Logic.I].
Qed.

(** ** Histories *)
Theorem always_tidy version l (w w' : world) : performs version l w w' -> tidy (wO w) -> tidy (wO w').
Proof.
  intros H. induction H as [w|c l w w1 w2 E H IH|c l w m w1 w2 E H IH]; intros T; [exact T| |];
    pose proof (tends_exec version c w T) as G; rewrite E in G; apply IH; [apply G|exact G].
Qed.
Theorem left_tidy version (c : call S) (w w' : world) : leaves version c w w' -> tidy (wO w) -> tidy (wO w').
Proof.
  intros Hl T. pose proof (tends_exec version c w T) as G. destruct Hl as [E|[(m & E)|E]]; rewrite E in G; [apply G|exact G|exact G].
Qed.
End Thms.

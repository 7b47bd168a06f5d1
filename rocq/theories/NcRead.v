(** Rules for the reader. *)
From Coq Require Import ZArith List String Bool Lia.
From Verif Require Import Scalar Prog Wp Func Step TrigProof Vmec VmecSpec VmecRun Nc NcModel NcSpec NcTri.
Import ListNotations.
Local Open Scope Z_scope.

Section Read.
Variable S : Scalar.
Notation obj := (obj S).
Notation world := (world S).
Notation io := (io S).
Notation file := (ncfile S).
Notation F := (F S).
Notation arr := (arr S).

(** While file [f] is open for reading as number [h], the others open being [op]: *)
Variable f : file.
Variable h : Z.
Variable op : list (Z * hnd S).
Variable fs : string -> option (disk S).
Variable q0 : list verdict.
Definition rst (w : world) : Prop :=
  wOpen w = (h, Reading f) :: op /\ Forall (fun p => fst p < h) op /\ wFS w = fs /\ wNext w = h + 1 /\
  (q0 = [] -> wQ w = []).

Lemma rst_same w w' : rst w -> same_but_q w w' -> (wQ w = [] -> wQ w' = []) -> rst w'.
Proof.
  intros (H1 & H2 & H3 & H4 & H5) (E1 & E2 & E3 & E4) HQ. unfold rst. rewrite E2, E3, E4. splits; auto.
Qed.
Lemma rst_bad w : wQ w <> [] -> rst w -> q0 <> [].
Proof. intros H1 (_ & _ & _ & _ & H) H2. auto. Qed.
Lemma rst_same' w w' : rst w -> same_but_q w w' -> wQ w <> [] -> rst w'.
Proof. intros H H1 H2. eapply rst_same; eauto. intros X. contradiction. Qed.
Lemma rst_ev w o ev : rst w -> rst (addEv (setO w o) ev).
Proof. intros H. exact H. Qed.
Lemma rst_O w o : rst w -> rst (setO w o).
Proof. intros H. exact H. Qed.
Lemma rst_contents w : rst w -> contents w h = Some f.
Proof. intros (H1 & _). unfold contents, handle. rewrite H1. cbn. now rewrite Z.eqb_refl. Qed.

Section Get.
Variables (E D : world -> Prop).
Hypothesis HD : forall w, wFS w = fs -> q0 <> [] -> D w.

Lemma D_same w w' : rst w -> same_but_q w w' -> wQ w <> [] -> D w'.
Proof. intros R (_ & E2 & _) H. apply HD; [rewrite E2; apply R|eapply rst_bad; eauto]. Qed.

Lemma tri_rerr {A} x m w (Q : A -> world -> Prop) :
  (forall e, E (addEv w e)) -> tri (rerr S x m) w Q E D.
Proof. intros H. unfold rerr. apply tri_bind. unfold tri, say, ithrow. apply H. Qed.

Lemma tri_varid {B} x w (k : unit -> io B) (Q : B -> world -> Prop) :
  rst w ->
  (forall w', rst w' -> wO w' = wO w -> find_var f x = None \/ q0 <> [] -> E w') ->
  (forall w', rst w' -> wO w' = wO w -> find_var f x <> None -> tri (k tt) w' Q E D) ->
  tri (ibind (nc_inq_varid h x) (fun c => ibind (rchk S x c) k)) w Q E D.
Proof.
  intros R HE Hk. apply tri_bind. apply tri_call.
  - intros w' Hs Hq. assert (R' : rst w') by (eapply rst_same; eauto).
    rewrite (rst_contents w' R'). destruct (find_var f x) eqn:Ef.
    + apply Hk; auto; [apply Hs|discriminate].
    + apply tri_bind. apply tri_rerr. intros e. apply HE; auto. apply Hs.
  - intros w' m Hs Hq. split; [|eapply D_same; eauto].
    assert (R' : rst w') by (eapply rst_same'; eauto).
    apply tri_bind. apply tri_rerr. intros e. apply HE; auto; [apply Hs|right; eapply rst_bad; eauto].
Qed.

Lemma tri_rget {T} (conv : ncval S -> option (list (option T) * bool)) x buf store w (Q : list (option T) -> world -> Prop) :
  rst w -> buf <> [] ->
  (forall w', rst w' -> wO w' = wO w -> find_var f x = None \/ q0 <> [] -> E w') ->
  (forall v, find_var f x = Some v -> exists l, conv (vr_val v) = Some (l, false) /\ List.length l = List.length buf) ->
  (forall v l w', find_var f x = Some v -> conv (vr_val v) = Some (l, false) -> rst w' -> wO w' = wO w ->
     tri (store l) w' (fun _ w2 => Q l w2) E D) ->
  tri (rget S conv h x buf store) w Q E D.
Proof.
  intros R Hb HE Hl Hk. unfold rget. apply tri_varid; auto.
  intros w1 R1 O1 Hx. destruct buf as [|b0 buf0] eqn:Eb; [contradiction|]. rewrite <- Eb in *.
  replace (List.length buf =? 0)%nat with false by (rewrite Eb; reflexivity).
  apply tri_bind. apply tri_ret. apply tri_bind. apply tri_call.
  - intros w2 Hs Hq. assert (R2 : rst w2) by (eapply rst_same; eauto).
    rewrite (rst_contents w2 R2). destruct (find_var f x) as [v|] eqn:Ef; [|contradiction].
    destruct (Hl v eq_refl) as (l & El & Ll). rewrite El, Ll, Nat.ltb_irrefl, skipn_all, app_nil_r.
    apply tri_bind. apply tri_ret. apply tri_bind.
    eapply tri_mono; [| | |apply (Hk v l w2); auto]; auto.
    destruct Hs as (E1 & _). congruence.
  - intros w2 m Hs Hq. split; [|eapply D_same; eauto].
    assert (R' : rst w2) by (eapply rst_same'; eauto).
    apply tri_bind. apply tri_rerr. intros e. apply HE; auto; [|right; eapply rst_bad; eauto].
    destruct Hs as (E1 & _). cbn. congruence.
Qed.

Lemma len1 {T} (l : list (option T)) g : vec_is (mkArr 1 1 l) 1 g -> l = [Some (g 0)].
Proof.
  intros (_ & _ & L & H). cbn in *. destruct l as [|a [|b l]]; cbn in L; try lia.
  specialize (H 0 ltac:(lia)). cbv in H. now injection H as ->.
Qed.

Lemma tri_get_int {B} x fld z w (k : unit -> io B) (Q : B -> world -> Prop) :
  rst w -> holds_int S f x z ->
  (forall w', rst w' -> wO w' = wO w -> find_var f x = None \/ q0 <> [] -> E w') ->
  (forall w', rst w' -> wO w' = updI (wO w) fld (Some z) -> present S f x -> tri (k tt) w' Q E D) ->
  tri (ibind (get_int S h x fld) k) w Q E D.
Proof.
  intros R Hx He Hk. apply tri_bind. unfold get_int. apply tri_bind, tri_obj. apply tri_bind. apply tri_rget; auto.
  - discriminate.
  - intros v Hv. destruct (Hx v Hv) as (l & El & V). exists l. split; auto. rewrite (len1 _ _ V). reflexivity.
  - intros v l w' Hv Hl R' O'. destruct (Hx v Hv) as (l' & El & V). rewrite El in Hl. injection Hl as <-.
    rewrite (len1 _ _ V). apply tri_bind, tri_obj, tri_setobj, tri_ret. apply Hk; auto.
    + cbn. now rewrite O'.
    + unfold present. congruence.
Qed.
Lemma tri_get_flt {B} x fld z w (k : unit -> io B) (Q : B -> world -> Prop) :
  rst w -> holds_vec S f x 1 (fun _ => z) ->
  (forall w', rst w' -> wO w' = wO w -> find_var f x = None \/ q0 <> [] -> E w') ->
  (forall w', rst w' -> wO w' = updF (wO w) fld (Some z) -> present S f x -> tri (k tt) w' Q E D) ->
  tri (ibind (get_flt S h x fld) k) w Q E D.
Proof.
  intros R Hx He Hk. apply tri_bind. unfold get_flt. apply tri_bind, tri_obj. apply tri_bind. apply tri_rget; auto.
  - discriminate.
  - intros v Hv. destruct (Hx v Hv) as (l & El & V). exists l. split; auto. rewrite (len1 _ _ V). reflexivity.
  - intros v l w' Hv Hl R' O'. destruct (Hx v Hv) as (l' & El & V). rewrite El in Hl. injection Hl as <-.
    rewrite (len1 _ _ V). apply tri_bind, tri_obj, tri_setobj, tri_ret. apply Hk; auto.
    + cbn. now rewrite O'.
    + unfold present. congruence.
Qed.
Lemma tri_get_local_int {B} x z w (k : option Z -> io B) (Q : B -> world -> Prop) :
  rst w -> holds_int S f x z ->
  (forall w', rst w' -> wO w' = wO w -> find_var f x = None \/ q0 <> [] -> E w') ->
  (forall w', rst w' -> wO w' = wO w -> present S f x -> tri (k (Some z)) w' Q E D) ->
  tri (ibind (get_local_int S h x) k) w Q E D.
Proof.
  intros R Hx He Hk. apply tri_bind. unfold get_local_int. apply tri_bind. apply tri_rget; auto.
  - discriminate.
  - intros v Hv. destruct (Hx v Hv) as (l & El & V). exists l. split; auto. rewrite (len1 _ _ V). reflexivity.
  - intros v l w' Hv Hl R' O'. destruct (Hx v Hv) as (l' & El & V). rewrite El in Hl. injection Hl as <-.
    rewrite (len1 _ _ V). apply tri_ret, tri_ret. apply Hk; auto. unfold present. congruence.
Qed.
Lemma length_pos {T} (l : list T) : 1 <= Z.of_nat (List.length l) -> l <> [].
Proof. intros H ->. cbn in H. lia. Qed.
Lemma tri_get_ints {B} x fld n g w (k : unit -> io B) (Q : B -> world -> Prop) :
  rst w -> holds_ints S f x n g -> shp (oN (wO w) fld) n 1 -> 1 <= n ->
  (forall w', rst w' -> wO w' = wO w -> find_var f x = None \/ q0 <> [] -> E w') ->
  (forall w' a, rst w' -> vec_is a n g -> wO w' = updN (wO w) fld a -> present S f x -> tri (k tt) w' Q E D) ->
  tri (ibind (get_ints S h x fld) k) w Q E D.
Proof.
  intros R Hx (S1 & S2 & S3 & S4 & S5) Hn He Hk. rewrite Z.mul_1_r in S5.
  apply tri_bind. unfold get_ints. apply tri_bind, tri_obj. apply tri_bind. apply tri_rget; auto.
  - apply length_pos. lia.
  - intros v Hv. destruct (Hx v Hv) as (l & El & V). exists l. split; auto. destruct V as (_ & _ & L & _). cbn in L. lia.
  - intros v l w' Hv Hl R' O'. destruct (Hx v Hv) as (l' & El & V). rewrite El in Hl. injection Hl as <-.
    apply tri_bind, tri_obj, tri_setobj, tri_ret. apply (Hk _ (mkArr n 1 l')); auto.
    + cbn. rewrite O', S3, S4. reflexivity.
    + unfold present. congruence.
Qed.
Lemma tri_get_vec {B} x fld n g w (k : unit -> io B) (Q : B -> world -> Prop) :
  rst w -> holds_vec S f x n g -> shp (oA (wO w) fld) n 1 -> 1 <= n ->
  (forall w', rst w' -> wO w' = wO w -> find_var f x = None \/ q0 <> [] -> E w') ->
  (forall w' a, rst w' -> vec_is a n g -> wO w' = updA (wO w) fld a -> present S f x -> tri (k tt) w' Q E D) ->
  tri (ibind (get_arr S h x fld) k) w Q E D.
Proof.
  intros R Hx (S1 & S2 & S3 & S4 & S5) Hn He Hk. rewrite Z.mul_1_r in S5.
  apply tri_bind. unfold get_arr. apply tri_bind, tri_obj. apply tri_bind. apply tri_rget; auto.
  - apply length_pos. lia.
  - intros v Hv. destruct (Hx v Hv) as (l & El & V). exists l. split; auto. destruct V as (_ & _ & L & _). cbn in L. lia.
  - intros v l w' Hv Hl R' O'. destruct (Hx v Hv) as (l' & El & V). rewrite El in Hl. injection Hl as <-.
    apply tri_bind, tri_obj, tri_setobj, tri_ret. apply (Hk _ (mkArr n 1 l')); auto.
    + cbn. rewrite O', S3, S4. reflexivity.
    + unfold present. congruence.
Qed.
Lemma tri_get_mat {B} x fld r c g w (k : unit -> io B) (Q : B -> world -> Prop) :
  rst w -> holds_mat S f x r c g -> shp (oA (wO w) fld) r c -> 1 <= r -> 1 <= c ->
  (forall w', rst w' -> wO w' = wO w -> find_var f x = None \/ q0 <> [] -> E w') ->
  (forall w' a, rst w' -> mat_is a r c g -> wO w' = updA (wO w) fld a -> present S f x -> tri (k tt) w' Q E D) ->
  tri (ibind (get_arr S h x fld) k) w Q E D.
Proof.
  intros R Hx (S1 & S2 & S3 & S4 & S5) Hr Hc He Hk.
  apply tri_bind. unfold get_arr. apply tri_bind, tri_obj. apply tri_bind. apply tri_rget; auto.
  - apply length_pos. nia.
  - intros v Hv. destruct (Hx v Hv) as (l & El & V). exists l. split; auto.
    destruct V as (_ & _ & _ & _ & L & _). cbn in L. lia.
  - intros v l w' Hv Hl R' O'. destruct (Hx v Hv) as (l' & El & V). rewrite El in Hl. injection Hl as <-.
    apply tri_bind, tri_obj, tri_setobj, tri_ret. apply (Hk _ (mkArr r c l')); auto.
    + cbn. rewrite O', S3, S4. reflexivity.
    + unfold present. congruence.
Qed.
Lemma tri_get_local {B} x a0 n g w (k : arr -> io B) (Q : B -> world -> Prop) :
  rst w -> holds_vec S f x n g -> shp a0 n 1 -> 1 <= n ->
  (forall w', rst w' -> wO w' = wO w -> find_var f x = None \/ q0 <> [] -> E w') ->
  (forall w' a, rst w' -> vec_is a n g -> wO w' = wO w -> present S f x -> tri (k a) w' Q E D) ->
  tri (ibind (get_local S h x a0) k) w Q E D.
Proof.
  intros R Hx (S1 & S2 & S3 & S4 & S5) Hn He Hk. rewrite Z.mul_1_r in S5.
  apply tri_bind. unfold get_local. apply tri_bind. apply tri_rget; auto.
  - apply length_pos. lia.
  - intros v Hv. destruct (Hx v Hv) as (l & El & V). exists l. split; auto. destruct V as (_ & _ & L & _). cbn in L. lia.
  - intros v l w' Hv Hl R' O'. destruct (Hx v Hv) as (l' & El & V). rewrite El in Hl. injection Hl as <-.
    apply tri_ret. rewrite S3, S4. apply tri_ret. apply Hk; auto. unfold present. congruence.
Qed.
Lemma tri_get_localm {B} x a0 r c g w (k : arr -> io B) (Q : B -> world -> Prop) :
  rst w -> holds_mat S f x r c g -> shp a0 r c -> 1 <= r -> 1 <= c ->
  (forall w', rst w' -> wO w' = wO w -> find_var f x = None \/ q0 <> [] -> E w') ->
  (forall w' a, rst w' -> mat_is a r c g -> wO w' = wO w -> present S f x -> tri (k a) w' Q E D) ->
  tri (ibind (get_local S h x a0) k) w Q E D.
Proof.
  intros R Hx (S1 & S2 & S3 & S4 & S5) Hr Hc He Hk.
  apply tri_bind. unfold get_local. apply tri_bind. apply tri_rget; auto.
  - apply length_pos. nia.
  - intros v Hv. destruct (Hx v Hv) as (l & El & V). exists l. split; auto.
    destruct V as (_ & _ & _ & _ & L & _). cbn in L. lia.
  - intros v l w' Hv Hl R' O'. destruct (Hx v Hv) as (l' & El & V). rewrite El in Hl. injection Hl as <-.
    apply tri_ret. rewrite S3, S4. apply tri_ret. apply Hk; auto. unfold present. congruence.
Qed.

Lemma tri_getdim {B} x n w (k : Z -> io B) (Q : B -> world -> Prop) :
  rst w -> holds_dim S f x n ->
  (forall w', rst w' -> wO w' = wO w -> lookup (nf_dims f) x = None \/ q0 <> [] -> E w') ->
  (forall w', rst w' -> wO w' = wO w -> has_dim S f x -> tri (k n) w' Q E D) ->
  tri (ibind (getdim S h x) k) w Q E D.
Proof.
  intros R Hx He Hk. apply tri_bind. unfold getdim. apply tri_bind. apply tri_call.
  2:{ intros w' m Hs Hq. split; [|eapply D_same; eauto].
      assert (R' : rst w') by (eapply rst_same'; eauto).
      apply tri_bind. apply tri_rerr. intros e. apply He; auto; [apply Hs|right; eapply rst_bad; eauto]. }
  intros w1 Hs Hq. assert (R1 : rst w1) by (eapply rst_same; eauto). rewrite (rst_contents w1 R1).
  destruct Hs as (O1 & _).
  destruct (lookup (nf_dims f) x) eqn:Ef.
  2:{ apply tri_bind. apply tri_rerr. intros e. apply He; auto. }
  apply tri_bind, tri_ret, tri_bind. apply tri_call.
  2:{ intros w' m Hs Hq'. split; [|eapply D_same; eauto].
      assert (R' : rst w') by (eapply rst_same'; eauto). destruct Hs as (E1 & _).
      apply tri_rerr. intros e. apply He; auto; [cbn; congruence|right; eapply rst_bad; eauto]. }
  intros w2 Hs Hq2. assert (R2 : rst w2) by (eapply rst_same; eauto). rewrite (rst_contents w2 R2), Ef.
  destruct Hs as (O2 & _).
  apply tri_ret. rewrite (Hx _ Ef). apply Hk; auto; [congruence|unfold has_dim; congruence].
Qed.

Lemma filter_none {A} (p : A -> bool) l : Forall (fun x => p x = true) l -> filter p l = l.
Proof. induction 1; cbn; auto. now rewrite H, IHForall. Qed.

Lemma tri_rclose w (Q : unit -> world -> Prop) :
  rst w -> (forall w', rst w' -> wO w' = wO w -> q0 <> [] -> E w') ->
  (forall w', wOpen w' = op -> wFS w' = fs -> wNext w' = h + 1 -> (q0 = [] -> wQ w' = []) -> wO w' = wO w -> Q tt w') ->
  tri (rclose S h) w Q E D.
Proof.
  intros R He Hk. unfold rclose. apply tri_bind. apply tri_call.
  - intros w' Hs Hq. assert (R' : rst w') by (eapply rst_same; eauto).
    pose proof R' as (H1 & H2 & H3 & H4 & H5). unfold handle. rewrite H1. cbn [find fst]. rewrite Z.eqb_refl. cbn [snd].
    apply tri_ret. apply Hk; auto; [|apply Hs].
    cbn. rewrite H1. cbn [filter fst]. rewrite Z.eqb_refl. cbn [negb]. apply filter_none.
    eapply Forall_impl; [|exact H2]. cbn. intros a Ha. destruct (Z.eqb_spec (fst a) h); [lia|reflexivity].
  - intros w' m Hs Hq. split; [|eapply D_same; eauto].
    assert (R' : rst w') by (eapply rst_same'; eauto).
    apply tri_rerr. intros e. apply He; auto; [apply Hs|eapply rst_bad; eauto].
Qed.

(** Programs on the object while the file is open *)
Lemma tri_lift_r {A B} (p : prog S A) w (k : A -> io B) (Q : B -> world -> Prop) :
  rst w ->
  wp fp_any p (wO w) (fun a o _ => forall w', rst w' -> wO w' = o -> tri (k a) w' Q E D) ->
  tri (ibind (lift p) k) w Q E D.
Proof.
  intros R W. apply tri_bind, tri_lift. eapply wp_mono; [|exact W]. cbn. intros a o ev H. apply H; auto.
Qed.
(** ... consisting of one step with a continuation rule *)
Lemma tri_chatter {B} p (k : unit -> io B) w v (Q : B -> world -> Prop) :
  rst w -> oI (wO w) I_verbose = Some v -> wp fp_any p (wO w) (fun _ o _ => o = wO w) ->
  (forall w', rst w' -> wO w' = wO w -> tri (k tt) w' Q E D) ->
  tri (ibind (chatter S p) k) w Q E D.
Proof.
  intros R Hv Hp Hk. unfold chatter. apply tri_lift_r; auto. eapply wp_geti; [exact Hv|].
  destruct (0 <? v).
  - eapply wp_mono; [|exact Hp]. cbn. intros [] o ev -> w' R' O'. apply Hk; auto.
  - cbn. intros w' R' O'. apply Hk; auto.
Qed.
Lemma tri_resize_ints {B} fld n (k : unit -> io B) w (Q : B -> world -> Prop) :
  rst w -> wf_arr (oN (wO w) fld) -> 0 <= n ->
  (forall w' a, rst w' -> shp a n 1 -> wO w' = updN (wO w) fld a -> tri (k tt) w' Q E D) ->
  tri (ibind (resize_ints S fld n) k) w Q E D.
Proof.
  intros R W Hn Hk. unfold resize_ints. apply tri_bind. apply tri_bind, tri_obj.
  apply tri_lift_r; auto. apply wp_unbind. eapply wp_resize; [exact W|lia|lia|].
  intros a E1 E2 E3. cbn [wp]. intros w' R' O'. apply tri_lift. cbn. split; [exact Logic.I|].
  apply (Hk _ a); [exact R'| |cbn; now rewrite O']. unfold shp. splits; auto. lia.
Qed.
Lemma tri_resize_arr {B} fld r c (k : unit -> io B) w (Q : B -> world -> Prop) :
  rst w -> wf_arr (oA (wO w) fld) -> 0 <= r -> 0 <= c ->
  (forall w' a, rst w' -> shp a r c -> wO w' = updA (wO w) fld a -> tri (k tt) w' Q E D) ->
  tri (ibind (resize_arr S fld r c) k) w Q E D.
Proof.
  intros R W Hr Hc Hk. unfold resize_arr. apply tri_lift_r; auto. apply wp_unbind.
  eapply wp_resize_member; [exact Logic.I|exact W|lia|lia|].
  intros a Ha. cbn [wp]. intros w' R' O'. apply (Hk _ a); auto.
Qed.
Lemma tri_new_vec {B} n (k : arr -> io B) w (Q : B -> world -> Prop) :
  rst w -> 0 <= n -> (forall w' a, rst w' -> shp a n 1 -> wO w' = wO w -> tri (k a) w' Q E D) ->
  tri (ibind (new_vec S n) k) w Q E D.
Proof.
  intros R Hn Hk. unfold new_vec. apply tri_lift_r; auto. apply wp_unbind.
  eapply wp_resize; [unfold wf_arr; cbn; lia|lia|lia|].
  intros a E1 E2 E3. cbn [wp]. intros w' R' O'. apply Hk; auto. unfold shp. splits; auto. lia.
Qed.
Lemma tri_new_mat {B} r c (k : arr -> io B) w (Q : B -> world -> Prop) :
  rst w -> 0 <= r -> 0 <= c -> (forall w' a, rst w' -> shp a r c -> wO w' = wO w -> tri (k a) w' Q E D) ->
  tri (ibind (new_mat S r c) k) w Q E D.
Proof.
  intros R Hr Hc Hk. unfold new_mat. apply tri_lift_r; auto. apply wp_unbind.
  eapply wp_resize; [unfold wf_arr; cbn; lia|lia|lia|].
  intros a E1 E2 E3. cbn [wp]. intros w' R' O'. apply Hk; auto. unfold shp. splits; auto.
Qed.
(** An array filled from the object itself *)
Lemma wp_fill_gen {B} fld n x g (k : unit -> prog S B) o Q :
  shp (oA o fld) n 1 ->
  (forall j (k' : F -> prog S arr) Q', 0 <= j < n -> wp fp_any (k' (g j)) o Q' -> wp fp_any (bind (x j) k') o Q') ->
  (forall a, vec_is a n g -> wp fp_any (k tt) (updA o fld a) Q) ->
  wp fp_any (bind (fill_vec S fld n x) k) o Q.
Proof.
  intros Hs Hx H. unfold fill_vec. pose proof (proj1 Hs) as Hn.
  eapply wp_bind0 with (R := fun _ o' => exists a, vec_is a n g /\ o' = updA o fld a).
  - eapply wp_getarr; [exact Logic.I|].
    eapply wp_sub with (R := fun a => vec_is a n g).
    + eapply wp_mono; [|eapply wp_for_pure with (Inv := fun j a => part a n 1 (fun i _ => i < j) (fun i _ => g i))].
      * cbn. intros a o' ev (-> & -> & Hp). splits; auto. eapply (part_vec a n _ (fun i _ => g i)); [|exact Hp]. cbn. lia.
      * lia.
      * eapply part_mono; [|apply (part_none _ _ _ (fun i _ => g i)); exact Hs]. cbn. intros; lia.
      * intros j a Hj Hp. apply Hx; [lia|].
        eapply wp_vset_part1; [exact Hp|lia|]. intros a' Hp'. splits; auto.
        eapply part_mono; [|exact Hp']. cbn. intros i l Hi Hl Hd. split; [lia|]. destruct (Z.eqb_spec i j); zb; subst; auto.
    + intros a Ha. cbn. splits; eauto.
  - intros [] o' (a & Ha & ->). auto.
Qed.
Lemma tri_fill_vec {B} fld n x g (k : unit -> io B) w (Q : B -> world -> Prop) :
  rst w -> shp (oA (wO w) fld) n 1 -> (forall j, 0 <= j < n -> x j = Ret (g j)) ->
  (forall w' a, rst w' -> vec_is a n g -> wO w' = updA (wO w) fld a -> tri (k tt) w' Q E D) ->
  tri (ibind (lift (fill_vec S fld n x)) k) w Q E D.
Proof.
  intros R Hs Hx Hk. apply tri_lift_r; auto. apply wp_unbind.
  eapply wp_fill_vec; [exact Logic.I|exact Hs|exact Hx|].
  intros a Ha. cbn [wp]. intros w' R' O'. apply (Hk _ a); auto.
Qed.
Lemma tri_seti {B} fld z (k : unit -> io B) w (Q : B -> world -> Prop) :
  rst w -> (forall w', rst w' -> wO w' = updI (wO w) fld (Some z) -> tri (k tt) w' Q E D) ->
  tri (ibind (lift (seti fld z)) k) w Q E D.
Proof. intros R Hk. apply tri_lift_r; auto. cbn. auto. Qed.
Lemma tri_setb {B} fld z (k : unit -> io B) w (Q : B -> world -> Prop) :
  rst w -> (forall w', rst w' -> wO w' = updB (wO w) fld (Some z) -> tri (k tt) w' Q E D) ->
  tri (ibind (lift (setb fld z)) k) w Q E D.
Proof. intros R Hk. apply tri_lift_r; auto. cbn. auto. Qed.
Lemma tri_setf {B} fld z (k : unit -> io B) w (Q : B -> world -> Prop) :
  rst w -> (forall w', rst w' -> wO w' = updF (wO w) fld (Some z) -> tri (k tt) w' Q E D) ->
  tri (ibind (lift (setf fld z)) k) w Q E D.
Proof. intros R Hk. apply tri_lift_r; auto. cbn. auto. Qed.
Lemma tri_setarr {B} fld a (k : unit -> io B) w (Q : B -> world -> Prop) :
  rst w -> (forall w', rst w' -> wO w' = updA (wO w) fld a -> tri (k tt) w' Q E D) ->
  tri (ibind (lift (setarr fld a)) k) w Q E D.
Proof. intros R Hk. apply tri_lift_r; auto. cbn. auto. Qed.
Lemma tri_setn {B} fld a (k : unit -> io B) w (Q : B -> world -> Prop) :
  rst w -> (forall w', rst w' -> wO w' = updN (wO w) fld a -> tri (k tt) w' Q E D) ->
  tri (ibind (lift (setn fld a)) k) w Q E D.
Proof. intros R Hk. apply tri_lift_r; auto. cbn. auto. Qed.
Lemma tri_geti {B} fld z (k : Z -> io B) w (Q : B -> world -> Prop) :
  rst w -> oI (wO w) fld = Some z -> (forall w', rst w' -> wO w' = wO w -> tri (k z) w' Q E D) ->
  tri (ibind (lift (geti fld)) k) w Q E D.
Proof. intros R Hz Hk. apply tri_lift_r; auto. cbn. eauto. Qed.
Lemma tri_getb {B} fld z (k : bool -> io B) w (Q : B -> world -> Prop) :
  rst w -> oB (wO w) fld = Some z -> (forall w', rst w' -> wO w' = wO w -> tri (k z) w' Q E D) ->
  tri (ibind (lift (getb fld)) k) w Q E D.
Proof. intros R Hz Hk. apply tri_lift_r; auto. cbn. eauto. Qed.
Lemma tri_getv {B} fld n g j (k : F -> io B) w (Q : B -> world -> Prop) :
  rst w -> vec_is (oA (wO w) fld) n g -> 0 <= j < n ->
  (forall w', rst w' -> wO w' = wO w -> tri (k (g j)) w' Q E D) ->
  tri (ibind (lift (getv fld j)) k) w Q E D.
Proof. intros R (_ & _ & _ & H) Hj Hk. apply tri_lift_r; auto. cbn. rewrite H by auto. eauto. Qed.
Lemma tri_getn {B} fld n g j (k : Z -> io B) w (Q : B -> world -> Prop) :
  rst w -> vec_is (oN (wO w) fld) n g -> 0 <= j < n ->
  (forall w', rst w' -> wO w' = wO w -> tri (k (g j)) w' Q E D) ->
  tri (ibind (lift (getn fld j)) k) w Q E D.
Proof. intros R (_ & _ & _ & H) Hj Hk. apply tri_lift_r; auto. cbn. rewrite H by auto. eauto. Qed.
Lemma tri_int {B} z (k : Z -> io B) w (Q : B -> world -> Prop) :
  rst w -> INT_MIN <= z <= INT_MAX -> (forall w', rst w' -> wO w' = wO w -> tri (k z) w' Q E D) ->
  tri (ibind (lift (int_ z)) k) w Q E D.
Proof. intros R Hz Hk. apply tri_lift_r; auto. unfold int_. rewrite in_int_true by auto. cbn. auto. Qed.
Lemma tri_idiv {B} a b (k : Z -> io B) w (Q : B -> world -> Prop) :
  rst w -> b <> 0 -> INT_MIN <= Z.quot a b <= INT_MAX ->
  (forall w', rst w' -> wO w' = wO w -> tri (k (Z.quot a b)) w' Q E D) ->
  tri (ibind (lift (idiv a b)) k) w Q E D.
Proof.
  intros R Hb Hz Hk. apply tri_lift_r; auto. unfold idiv. destruct (Z.eqb_spec b 0); [contradiction|].
  unfold int_. rewrite in_int_true by auto. cbn. auto.
Qed.
Lemma tri_val {B} {T} (z : T) (k : T -> io B) w (Q : B -> world -> Prop) :
  tri (k z) w Q E D -> tri (ibind (val S (Some z)) k) w Q E D.
Proof. auto. Qed.

(** -m on a whole array *)
Lemma wp_neg_arr {B} (a : arr) r c g (k : arr -> prog S B) o Q :
  mat_is a r c g -> (forall b, mat_is b r c (fun i j => fneg S (g i j)) -> wp fp_any (k b) o Q) ->
  wp fp_any (bind (neg_arr S a) k) o Q.
Proof.
  intros (H1 & H2 & H3 & H4 & H5 & H6) Hk. unfold neg_arr, asize. rewrite H3, H4.
  eapply wp_sub with (R := fun b => mat_is b r c (fun i j => fneg S (g i j))); [|exact Hk].
  eapply wp_sub with (R := fun b => mat_is b r c (fun i j => fneg S (g i j))).
  - eapply wp_mono; [|eapply wp_for_pure with (Inv := fun j b => shp b r c /\
      forall i, 0 <= i < j -> exists x, znth (adata a) i = Some (Some x) /\ znth (adata b) i = Some (Some (fneg S x)))].
    + cbv beta. intros b o' ev (-> & -> & (B1 & B2 & B3 & B4 & B5) & Hb). splits; auto.
      split; [auto|]. split; [auto|]. split; [auto|]. split; [auto|]. split; [auto|].
      intros i j Hi Hj. destruct (Hb (i + j * r)) as (x & X1 & X2); [now apply flat_range|].
      rewrite H6 in X1 by auto. injection X1 as <-. exact X2.
    + nia.
    + split; [|intros; lia]. unfold shp. splits; auto. cbn. apply zrepeat_length. nia.
    + intros i b Hi ((B1 & B2 & B3 & B4 & B5) & Hb).
      assert (X : exists x, znth (adata a) i = Some (Some x)).
      { assert (Hr : 0 < r) by nia.
        exists (g (i mod r) (i / r)). rewrite <- H6.
        - f_equal. rewrite (Z.div_mod i r) at 1 by lia. lia.
        - apply Z.mod_pos_bound. lia.
        - split; [apply Z.div_pos; lia|apply Z.div_lt_upper_bound; nia]. }
      destruct X as (x & X). unfold vget. rewrite X. cbn [bind]. unfold vset.
      destruct (proj2 (znth_Some (adata b) i)) as (y & ->); [lia|]. cbn [wp]. splits; auto.
      * unfold shp. splits; auto. cbn. now rewrite zset_length.
      * intros k0 Hk0. cbn [aput adata]. destruct (Z.eq_dec k0 i) as [->|N].
        -- exists x. split; auto. apply znth_zset_same. lia.
        -- rewrite znth_zset_other by lia. apply Hb. lia.
  - intros b Hb. cbn. auto.
Qed.
Lemma tri_neg {B} fld r c g (k : arr -> io B) w (Q : B -> world -> Prop) :
  rst w -> mat_is (oA (wO w) fld) r c g ->
  (forall w' b, rst w' -> mat_is b r c (fun i j => fneg S (g i j)) -> wO w' = wO w -> tri (k b) w' Q E D) ->
  tri (ibind (lift (bind (getarr fld) (neg_arr S))) k) w Q E D.
Proof.
  intros R H Hk. apply tri_lift_r; auto. eapply wp_getarr; [exact Logic.I|].
  apply wp_unbind. eapply wp_neg_arr; [exact H|]. intros b Hb. cbn [wp]. intros w' R' O'. apply Hk; auto.
Qed.

End Get.
End Read.

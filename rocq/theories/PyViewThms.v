(** How long arrays obtained from attributes can be used, and what they show. *)
From Coq Require Import ZArith List String Bool Lia Reals.RIneq.
From Verif Require Import Scalar Prog Model Wp Func Step RunProof FuncExt Spec RunThms Py PyView PyViewProof.
Import ListNotations.
Local Open Scope Z_scope.
Local Arguments member_eq_dec : simpl never.

Section Thms.
Context {S : Scalar}.
Notation obj := (obj S).

Lemma inside_true i j r c : 0 <= i < r -> 0 <= j < c -> inside i j r c = true.
Proof. intros. unfold inside. repeat (apply andb_true_iff; split); try apply Z.leb_le; try apply Z.ltb_lt; lia. Qed.
Lemma wf_cell {T} (a : array T) i j : wf_arr a -> 0 <= i < arows a -> 0 <= j < acols a -> exists x, znth (adata a) (i + j * arows a) = Some x.
Proof.
  intros W Hi Hj. unfold wf_arr in W. unfold znth. destruct (Z.ltb_spec (i + j * arows a) 0); [nia|].
  destruct (nth_error (adata a) (Z.to_nat (i + j * arows a))) eqn:E; eauto. apply nth_error_None in E. exfalso.
  assert (i + j * arows a < arows a * acols a) by nia. lia.
Qed.
Lemma look_alive (o o' : obj) b b' f k j : blk b' (inl f) = blk b (inl f) -> wf_obj o' -> arows (oA o' f) = arows (oA o f) -> acols (oA o' f) = acols (oA o f) ->
  0 <= k < arows (oA o f) -> 0 <= j < acols (oA o f) ->
  exists x, elem2 o' f k j = Some x /\ look (get_view o b (inl f)) o' b' f k j = Value x.
Proof.
  intros E W Er Ec Hk Hj. unfold look, look_in, elem2. cbn [get_view vwRows vwCols vwBlk]. rewrite inside_true by auto. rewrite E, Z.eqb_refl.
  rewrite <- Er, <- Ec in *. destruct (wf_cell (oA o' f) k j) as (x & Ex); auto; [apply W|]. rewrite Ex. exists x. split; auto.
  destruct (Z.leb_spec 0 k); [|lia]. destruct (Z.ltb_spec k (arows (oA o' f))); [|lia]. destruct (Z.leb_spec 0 j); [|lia]. destruct (Z.ltb_spec j (acols (oA o' f))); [|lia]. reflexivity.
Qed.
Lemma look_dead (o o' : obj) b b' f k j : blk b' (inl f) <> blk b (inl f) -> 0 <= k < arows (oA o f) -> 0 <= j < acols (oA o f) ->
  look (get_view o b (inl f)) o' b' f k j = Freed.
Proof.
  intros E Hk Hj. unfold look, look_in. cbn [get_view vwRows vwCols vwBlk]. rewrite inside_true by auto. apply Z.eqb_neq in E. now rewrite E.
Qed.

Theorem lifetime l os (o : obj) b o' b' f k j : calls l os o b o' b' -> fits b -> wf_obj o' ->
  0 <= k < arows (oA o f) -> 0 <= j < acols (oA o f) ->
  (Forall (fun q => asize (oA q f) = asize (oA o f)) os -> arows (oA o' f) = arows (oA o f) -> acols (oA o' f) = acols (oA o f) ->
     exists x, elem2 o' f k j = Some x /\ look (get_view o b (inl f)) o' b' f k j = Value x) /\
  (Exists (fun q => asize (oA q f) <> asize (oA o f)) os -> look (get_view o b (inl f)) o' b' f k j = Freed).
Proof.
  intros C Hf W Hk Hj. pose proof (calls_alive S l os o b o' b' (inl f) C Hf) as A. split.
  - intros H Er Ec. apply look_alive; auto. now apply A.
  - intros H. apply look_dead; auto. intros E. apply A in E. rewrite Forall_forall in E. apply Exists_exists in H. destruct H as (q & Hq & N).
    apply N. apply (E q Hq).
Qed.

(** Inputs *)
Theorem inputs_stay (o : obj) i o' ev b f v k j : valid o i -> run_ok o o' ev ->
  In f (input_arrays_sym ++ input_arrays_asym ++ flux_arrays) -> fits b ->
  look v o' (track (bx_run S) o b) f k j = look v o b f k j.
Proof.
  intros V R Hf Hb. destruct (inputs_kept o i V) as (o1 & e1 & R1 & _ & _ & _ & _ & K). destruct (run_ok_det _ _ _ _ _ R R1) as (-> & ->).
  unfold look. rewrite (K f Hf). pose proof (track_once (bx_run S) (inl f) o o1 b tt e1 once Hb (c_bx_run S) (le_n _) R) as T.
  rewrite (proj2 T); auto. cbn. now rewrite (K f Hf).
Qed.

(** Results *)
Lemma put_keeps c p (o o' : obj) ev f : call_prog c = Some p -> c <> Run -> rw_arr f = false -> run p o = ROk tt o' ev -> oA o' f = oA o f.
Proof.
  intros Hc N Hf R. destruct c; cbn in Hc; try discriminate; try (destruct (rw_int f0 && in_int v)); try (destruct (rw_bool f0)); try (destruct (rw_flt f0));
    try (destruct (rw_ints f0)); try discriminate; try (injection Hc as <-; cbn in R; injection R as <- _; reflexivity).
  - destruct (rw_arr f0) eqn:E; [|discriminate]. destruct (negb _) in Hc; [|discriminate]. injection Hc as <-. cbn in R. injection R as <- _. cbn.
    destruct (afield_eq_dec f f0); [congruence|auto].
  - congruence.
Qed.
Lemma puts_keep l os (o : obj) b o' b' f : calls l os o b o' b' -> ~ In Run l -> rw_arr f = false -> oA o' f = oA o f /\ Forall (fun q => oA q f = oA o f) os.
Proof.
  intros C N Hf. induction C as [o b|c p l os o b o1 ev o2 b2 Hc Hr Hs IH]; [split; auto|].
  assert (E : oA o1 f = oA o f) by (eapply put_keeps; eauto; intros ->; apply N; left; auto).
  destruct IH as (E2 & Fa); [intros X; apply N; right; auto|]. split; [congruence|]. constructor; auto. now rewrite <- E.
Qed.
Lemma outs_ro a f : In f (outs a) -> rw_arr f = false.
Proof. destruct f; cbn; auto; intros H; exfalso; unfold outs in H; destruct a; cbn in H; repeat (destruct H as [H|H]; [discriminate|]); auto. Qed.

Theorem results_replaced (o : obj) i o1 e1 b l os o2 b2 i2 o3 e3 f k j :
  valid o i -> run_ok o o1 e1 -> fits b ->
  calls l os o1 b o2 b2 -> ~ In Run l -> valid o2 i2 -> run_ok o2 o3 e3 ->
  In f sym_outs \/ asym i = true /\ asym i2 = true /\ In f asym_outs -> 0 <= k < mnboz i -> 0 <= j < nsurf i ->
  (mnboz i2 = mnboz i -> nsurf i2 = nsurf i ->
     exists x, elem2 o3 f k j = Some (Some x) /\ look (get_view o1 b (inl f)) o3 (track (bx_run S) o2 b2) f k j = Value (Some x)) /\
  (mnboz i2 * nsurf i2 <> mnboz i * nsurf i -> look (get_view o1 b (inl f)) o3 (track (bx_run S) o2 b2) f k j = Freed).
Proof.
  intros V R1 Hb C NR V2 R3 Hf Hk Hj.
  destruct (run_total o i V) as (x1 & E1 & _ & _ & _ & Q1 & _). destruct (run_ok_det _ _ _ _ _ R1 E1) as (-> & _).
  destruct (run_total o2 i2 V2) as (x3 & E3 & _ & _ & _ & Q3 & W3). destruct (run_ok_det _ _ _ _ _ R3 E3) as (-> & _).
  assert (Hf1 : In f (outs (asym i))) by (unfold outs; destruct Hf as [H|(-> & _ & H)]; [destruct (asym i); [|auto]|]; apply in_or_app; auto).
  assert (Hf2 : In f (outs (asym i2))) by (unfold outs; destruct Hf as [H|(_ & -> & H)]; [destruct (asym i2); [|auto]|]; apply in_or_app; auto).
  pose proof (q_out _ _ _ Q1 f Hf1) as M1. pose proof (q_out _ _ _ Q3 f Hf2) as M3.
  destruct (puts_keep l os x1 b o2 b2 f C NR (outs_ro _ _ Hf1)) as (K2 & Ks).
  assert (A2 : blk b2 (inl f) = blk b (inl f)).
  { apply (calls_alive S l os x1 b o2 b2 (inl f) C Hb). eapply Forall_impl; [|exact Ks]. cbn. intros q ->. reflexivity. }
  assert (Hb2 : fits b2) by (apply (calls_next S _ _ _ _ _ _ C Hb)).
  pose proof (track_once (bx_run S) (inl f) o2 x3 b2 tt e3 once Hb2 (c_bx_run S) (le_n _) R3) as T. rewrite A2 in T. cbn in T. rewrite K2 in T.
  destruct M1 as (_ & _ & M1r & M1c & _). pose proof M3 as M3'. destruct M3' as (_ & _ & M3r & M3c & _).
  unfold asize in T. rewrite M1r, M1c, M3r, M3c in T. split.
  - intros Em En. destruct (look_alive x1 x3 b (track (bx_run S) o2 b2) f k j) as (x & Ex & Lx); try lia; auto.
    { apply T. now rewrite Em, En. }
    rewrite (elem2_mat x3 f _ _ _ k j M3) in Ex by lia. injection Ex as <-. eexists. split; [apply (elem2_mat x3 f _ _ _ k j M3); lia|exact Lx].
  - intros N. apply look_dead; try lia. intros E. apply T in E. contradiction.
Qed.
End Thms.

(** ** Refutations *)
Definition with_surfs {S} (i : Inp S) (n : Z) (g : Z -> Z) : Inp S :=
  {| asym := asym i; nfp := nfp i; mpol := mpol i; ntor := ntor i; mnmax := mnmax i; mpolq := mpolq i;
     ntorq := ntorq i; mnmaxq := mnmaxq i; nsin := nsin i; mboz := mboz i; nboz := nboz i; verb := verb i;
     xm := xm i; xn := xn i; xmq := xmq i; xnq := xnq i; nsurf := n; surf := g;
     sin_ := sin_ i; iota := iota i; rmnc := rmnc i; zmns := zmns i; lmns := lmns i; bmnc := bmnc i;
     bsubumnc := bsubumnc i; bsubvmnc := bsubvmnc i; rmns := rmns i; zmnc := zmnc i; lmnc := lmnc i;
     bmns := bmns i; bsubumns := bsubumns i; bsubvmns := bsubvmns i |}.
Lemma with_surfs_valid {S} (o : obj S) i n g : valid o i -> (n <= 3)%nat -> (forall k, 0 <= k < Z.of_nat n -> 0 <= g k < nsin i) ->
  valid (updN o N_compute_surfs (tab (Z.of_nat n) g)) (with_surfs i (Z.of_nat n) g).
Proof.
  intros (Hok & R & W) Hn Hg. split; [|split].
  - destruct Hok. constructor; auto; cbn [nsurf with_surfs]. unfold INT_MAX. lia.
  - destruct R. constructor; auto. apply tab_is. cbn; lia.
  - destruct W as [W1 W2]. constructor; auto. intros f. cbn. destruct (nfield_eq_dec f N_compute_surfs); auto.
    split; [eapply vec_is_wf; apply tab_is; lia|reflexivity].
Qed.
Definition b0 : store := mkStore (fun _ => 0) 1.
Lemma b0_fits : fits b0. Proof. intros m. cbn. lia. Qed.
Definition select {S} (n : nat) (g : Z -> Z) : list (call S) := [PutInts N_compute_surfs n g; Run].

(** Assign compute_surfs, run() *)
Lemma session {S} (asy : bool) n g : (n <= 3)%nat -> (forall k, 0 <= k < Z.of_nat n -> 0 <= g k < 3) ->
  exists o1 e1 o2 o3 e3, run_ok (obj_of (ex_inp S asy)) o1 e1 /\ results o1 (ex_inp S asy) /\
    o2 = updN o1 N_compute_surfs (tab (Z.of_nat n) g) /\
    valid o2 (with_surfs (ex_inp S asy) (Z.of_nat n) g) /\ run_ok o2 o3 e3 /\ results o3 (with_surfs (ex_inp S asy) (Z.of_nat n) g) /\ wf_obj o3 /\
    calls [PutInts N_compute_surfs n g] [o2] o1 b0 o2 (track (setn N_compute_surfs (tab (Z.of_nat n) g)) o1 b0) /\
    calls (select n g) [o2; o3] o1 b0 o3 (track (bx_run S) o2 (track (setn N_compute_surfs (tab (Z.of_nat n) g)) o1 b0)).
Proof.
  intros Hn Hg. destruct (run_total _ _ (ex_valid S asy)) as (o1 & E1 & _ & R1 & _ & Q1 & W1).
  assert (V2 : valid (updN o1 N_compute_surfs (tab (Z.of_nat n) g)) (with_surfs (ex_inp S asy) (Z.of_nat n) g)).
  { apply with_surfs_valid; auto. split; [apply ex_ok|split; auto]. }
  destruct (run_total _ _ V2) as (o3 & E3 & _ & _ & _ & Q3 & W3).
  eexists. eexists. eexists. eexists. eexists. splits; [exact E1|exact Q1|reflexivity|exact V2|exact E3|exact Q3|exact W3| |].
  - eapply calls_cons; [reflexivity|reflexivity|apply calls_nil].
  - eapply calls_cons; [reflexivity|reflexivity|]. eapply calls_cons; [reflexivity|exact E3|apply calls_nil].
Qed.

Theorem dangling_refuted (S : Scalar) asy : exists o1 o3 (b1 b3 : store) os,
  (exists o i e1, valid o i /\ run_ok o o1 e1 /\ i = ex_inp S asy) /\ fits b1 /\
  calls (select 1 (fun _ => 0)) os o1 b1 o3 b3 /\
  (exists x, look (get_view o1 b1 (inl A_bmnc_b)) o1 b1 A_bmnc_b 0 0 = Value (Some x)) /\
  look (get_view o1 b1 (inl A_bmnc_b)) o3 b3 A_bmnc_b 0 0 = Freed.
Proof.
  destruct (session (S := S) asy 1 (fun _ => 0)) as (o1 & e1 & o2 & o3 & e3 & E1 & Q1 & -> & V2 & E3 & Q3 & W3 & C1 & C2); [lia|intros; lia|].
  exists o1, o3, b0. eexists. eexists. splits.
  - eexists. eexists. eexists. splits; [apply ex_valid|exact E1|reflexivity].
  - apply b0_fits.
  - exact C2.
  - destruct (run_total _ _ (ex_valid S asy)) as (x1 & X1 & _ & _ & _ & _ & W1). destruct (run_ok_det _ _ _ _ _ E1 X1) as (-> & _).
    pose proof (q_out _ _ _ Q1 A_bmnc_b) as M. assert (Hin : In A_bmnc_b (outs (asym (ex_inp S asy)))) by (destruct asy; cbn; auto). specialize (M Hin).
    pose proof M as (_ & _ & Mr & Mc & _).
    destruct (look_alive x1 x1 b0 b0 A_bmnc_b 0 0) as (x & Ex & Lx); auto; rewrite ?Mr, ?Mc; try (vm_compute; split; [discriminate|reflexivity]).
    rewrite (elem2_mat x1 _ _ _ _ 0 0 M) in Ex by (vm_compute; split; [discriminate|reflexivity]). injection Ex as <-. eauto.
  - eapply (results_replaced (obj_of (ex_inp S asy)) (ex_inp S asy) o1 e1 b0 _ _ _ _ _ o3 e3); [apply ex_valid|exact E1|apply b0_fits|exact C1| |exact V2|exact E3| | | |].
    + intros [X|[]]; discriminate.
    + left. cbn. auto.
    + vm_compute. split; [discriminate|reflexivity].
    + vm_compute. split; [discriminate|reflexivity].
    + vm_compute. discriminate.
Qed.
Theorem changed_refuted : exists (o1 o3 : obj RS) (b1 b3 : store) os x y,
  (exists o i e1, valid o i /\ run_ok o o1 e1) /\ fits b1 /\
  calls (select 2 (fun k => k)) os o1 b1 o3 b3 /\
  look (get_view o1 b1 (inl A_s_b)) o1 b1 A_s_b 0 0 = Value (Some x) /\
  look (get_view o1 b1 (inl A_s_b)) o3 b3 A_s_b 0 0 = Value (Some y) /\ x <> y.
Proof.
  destruct (session (S := RS) false 2 (fun k => k)) as (o1 & e1 & o2 & o3 & e3 & E1 & Q1 & -> & V2 & E3 & Q3 & W3 & C1 & C2); [lia|intros; lia|].
  destruct (run_total _ _ (ex_valid RS false)) as (x1 & X1 & _ & _ & _ & _ & W1). destruct (run_ok_det _ _ _ _ _ E1 X1) as (-> & _).
  pose proof (q_s_b _ _ _ Q1) as M1. pose proof (q_s_b _ _ _ Q3) as M3. pose proof M1 as (M1r & M1c & _). pose proof M3 as (M3r & M3c & _).
  change (arows (oA x1 A_s_b) = 2) in M1r. change (arows (oA o3 A_s_b) = 2) in M3r.
  exists x1, o3, b0. eexists. eexists.
  destruct (look_alive x1 x1 b0 b0 A_s_b 0 0) as (x & Ex & Lx); auto; rewrite ?M1r, ?M1c; try lia.
  destruct (lifetime (S := RS) _ _ x1 b0 o3 _ A_s_b 0 0 C2 b0_fits W3) as (L & _); [rewrite M1r; lia|rewrite M1c; lia|].
  destruct L as (y & Ey & Ly).
  { constructor; [reflexivity|]. constructor; [|constructor]. unfold asize. rewrite M1r, M1c, M3r, M3c. reflexivity. }
  { congruence. } { congruence. }
  assert (Fx : x = Some (fofZ RS 2)).
  { unfold elem2 in Ex. rewrite M1r, M1c in Ex. change (znth (adata (oA x1 A_s_b)) 0 = Some x) in Ex. destruct M1 as (_ & _ & _ & M1). rewrite (M1 0) in Ex by (cbn; lia). injection Ex as <-. reflexivity. }
  assert (Fy : y = Some (fofZ RS 0)).
  { unfold elem2 in Ey. rewrite M3r, M3c in Ey. change (znth (adata (oA o3 A_s_b)) 0 = Some y) in Ey. destruct M3 as (_ & _ & _ & M3). rewrite (M3 0) in Ey by (cbn; lia). injection Ey as <-. reflexivity. }
  subst x y. exists (fofZ RS 2), (fofZ RS 0). splits; [|apply b0_fits|exact C2|exact Lx|exact Ly|].
  - eexists. eexists. eexists. splits; [apply ex_valid|exact E1].
  - cbn. apply (IZR_neq 2 0). lia.
Qed.
Lemma session_case {S} (asy : bool) n g : (n <= 3)%nat -> (forall k, 0 <= k < Z.of_nat n -> 0 <= g k < 3) ->
  exists o1 e1 o2 o3 e3 b2 b3, fits b0 /\ valid (obj_of (ex_inp S asy)) (ex_inp S asy) /\ run_ok (obj_of (ex_inp S asy)) o1 e1 /\
    calls [PutInts N_compute_surfs n g] [o2] o1 b0 o2 b2 /\
    valid o2 (with_surfs (ex_inp S asy) (Z.of_nat n) g) /\ run_ok o2 o3 e3 /\ wf_obj o3 /\
    calls [PutInts N_compute_surfs n g; Run] [o2; o3] o1 b0 o3 b3.
Proof.
  intros Hn Hg. destruct (session (S := S) asy n g Hn Hg) as (o1 & e1 & o2 & o3 & e3 & E1 & _ & _ & V2 & E3 & _ & W3 & C1 & C2).
  exists o1, e1, o2, o3, e3. eexists. eexists. splits; [apply b0_fits|apply ex_valid|exact E1|exact C1|exact V2|exact E3|exact W3|exact C2].
Qed.

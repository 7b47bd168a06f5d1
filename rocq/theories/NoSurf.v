(** C83: write_boozmn needs a selected surface, run() does not. *)
From Coq Require Import ZArith List String Bool Lia.
From Verif Require Import Scalar Prog Model Wp Func FuncExt Spec Vmec Nc NcModel NcSpec NcVoc NcWrite NcThms NcThms4 RunThms InitProof Py Frame FrameThms Sound SoundThms SoundEx Stored Written WrittenThm Leak LeakThms.
Import ListNotations.
Local Open Scope Z_scope.
Local Open Scope io_scope.

Ltac splits := repeat match goal with |- _ /\ _ => split end.
Ltac stp L := eapply ok_then; [eapply L; eassumption|]; cbv beta.

Section NoSurf.
Context {S : Scalar}.
Notation obj := (obj S).
Notation world := (world S).

Lemma ok_wdim2 x h regs y n o ds vs (w : world) : Written.st x h o ds vs w ->
  ok (wdim S (mkWr h regs) y n) w (fun _ w' => Written.st x h o (ds ++ [(y, n)]) vs w' /\ 0 <= n <= 2147483644 /\ (n = 0 -> existsb (fun p => snd p =? 0) ds = false)).
Proof.
  intros Hs. unfold wdim. cbn [wr_id]. unfold nc_def_dim. eapply ok_chk; [apply ok_define, Hs|].
  intros [] w' (g & g' & D & V & E & H').
  destruct ((n <? 0) || (2147483644 <? n)) eqn:B; [discriminate E|]. destruct ((n =? 0) && _) eqn:U; [discriminate E|]. destruct (lookup _ _); [discriminate E|].
  injection E as <-. cbn in H'. rewrite D, V in H'. split; [exact H'|]. apply orb_false_iff in B. destruct B as (B1 & B2).
  apply Z.ltb_ge in B1, B2. split; [lia|]. intros ->. rewrite D in U. exact U.
Qed.

(** What follows from a return, for any object and any behaviour of the library *)
Theorem write_needs version x (w w' : world) : write_boozmn S version x w = IOk tt w' ->
  exists ns mn, oI (wO w) I_ns_in = Some ns /\ oI (wO w) I_mnboz = Some mn /\ -1 <= ns <= 2147483643 /\ 1 <= mn <= 2147483644 /\
    1 <= asize (oN (wO w) N_compute_surfs) <= 2147483644.
Proof.
  intros E. set (o := wO w) in *.
  match goal with |- ?G => enough (K : ok (write_boozmn S version x) w (fun _ _ => G)) by (unfold ok in K; now rewrite E in K) end.
  clear E w'. unfold write_boozmn.
  apply ok_then with (P := fun _ w' => wO w' = o).
  { unfold chatter. apply ok_lift. intros a o' ev E. cbn in E. cbn. fold o in E. destruct (oI o I_verbose) as [v|]; [|discriminate E]. cbn in E.
    destruct (0 <? v); cbn in E; now injection E as _ <- _. }
  intros ? w0 O0.
  apply ok_then with (P := fun nc w' => exists h, nc = mkWr h [] /\ Written.st x h o [] [] w').
  { unfold new_writer. apply ok_then with (P := fun c w' => match c with Err _ => True | Good h => Written.st x h o [] [] w' end).
    - unfold nc_create. apply ok_call; [|intros; exact Logic.I]. intros w1 E1 E2. cbn. split; [cbn; congruence|]. exists (mkFile [] []). split; [|split; reflexivity].
      unfold handle. cbn. now rewrite Z.eqb_refl.
    - intros [m|h] w1 H1; [exact Logic.I|]. apply ok_bind, ok_ret, ok_ret. eauto. }
  intros nc w1 (h & -> & H1).
  stp @ok_geti. intros ns w2 (Ens & H2).
  stp @ok_iadd. intros n1 w3 (-> & H3).
  stp @ok_wdim2. intros ? w4 (H4 & N4 & _).
  stp @ok_geti. intros mn w5 (Emn & H5).
  stp @ok_wdim2. intros ? w6 (H6 & N6 & _).
  stp @ok_wdim2. intros ? w7 (H7 & N7 & U7).
  stp @ok_sizen. intros ncs w8 (-> & H8).
  stp @ok_wdim2. intros ? w9 (H9 & N9 & _).
  stp @ok_wdim2. intros ? w10 (H10 & N10 & U10).
  assert (M : mn <> 0). { intros ->. specialize (U7 eq_refl). cbn in U7. now rewrite orb_true_r in U7. }
  assert (C : asize (oN o N_compute_surfs) <> 0).
  { intros C. rewrite C in U10. specialize (U10 eq_refl). cbn in U10. now rewrite !orb_true_r in U10. }
  match goal with |- ok ?m ?v _ => unfold ok; destruct (m v); auto end.
  exists ns, mn. splits; auto; lia.
Qed.

(** *** Without a failure of the library *)
Definition throws (m : string) {A} (r : ires S A) (Q : world -> Prop) : Prop := exists w', r = IThrow m w' /\ Q w'.
Lemma throws_here {A B} e (m : io S A) (k : A -> io S B) (w : world) Q : throws e (m w) Q -> throws e (ibind m k w) Q.
Proof. intros (w' & E & H). exists w'. unfold ibind. now rewrite E. Qed.
Lemma throws_later {A B} e (m : io S A) (k : A -> io S B) (w : world) a w1 Q : m w = IOk a w1 -> throws e (k a w1) Q -> throws e (ibind m k w) Q.
Proof. intros E (w' & E' & H). exists w'. unfold ibind. now rewrite E. Qed.

Definition on (h : Z) (x : string) (o : obj) (ds : list (string * Z)) (w0 w : world) : Prop :=
  wO w = o /\ wQ w = [] /\ wFS w x = Some Torn /\ wOpen w = (h, Writing x (mkFile ds [])) :: wOpen w0 /\ Forall (fun p => fst p < h) (wOpen w0).
Lemma put_other (h : Z) (u : hnd S) l : Forall (fun p : Z * hnd S => fst p < h) l -> map (fun p => if fst p =? h then (h, u) else p) l = l.
Proof. induction 1 as [|p l H _ IH]; [reflexivity|]. cbn. rewrite IH. destruct (Z.eqb_spec (fst p) h); [lia|reflexivity]. Qed.
Lemma wdim_next h x o ds w0 (w : world) regs y n : on h x o ds w0 w -> 0 <= n <= 2147483644 -> (n = 0 -> existsb (fun p => snd p =? 0) ds = false) -> lookup ds y = None ->
  exists w', wdim S (mkWr h regs) y n w = IOk tt w' /\ on h x o (ds ++ [(y, n)]) w0 w'.
Proof.
  intros (O & Q & F & P & L) B U N. unfold wdim, nc_def_dim, define, ibind, Nc.call. cbn [wr_id]. rewrite Q. unfold handle. rewrite P. cbn [find fst snd]. rewrite Z.eqb_refl.
  rewrite (proj2 (Z.ltb_ge n 0)), (proj2 (Z.ltb_ge 2147483644 n)) by lia. cbn [orb snd nf_dims].
  assert (U' : (n =? 0) && existsb (fun p => snd p =? 0) ds = false) by (destruct (Z.eqb_spec n 0); [now rewrite U|reflexivity]).
  rewrite U', N. eexists. split; [reflexivity|]. unfold on, put_handle. cbn. rewrite P. cbn. rewrite Z.eqb_refl, put_other by exact L. auto.
Qed.
Lemma wdim_taken h x o ds w0 (w : world) regs y : on h x o ds w0 w -> existsb (fun p => snd p =? 0) ds = true ->
  wdim S (mkWr h regs) y 0 w = IThrow "NetCDF: NC_UNLIMITED size already in use" w.
Proof.
  intros (O & Q & F & P & L) U. unfold wdim, nc_def_dim, define, ibind, Nc.call. cbn [wr_id]. rewrite Q. unfold handle. rewrite P. cbn [find fst snd]. rewrite Z.eqb_refl.
  cbn [snd nf_dims]. rewrite U. reflexivity.
Qed.
Lemma on_geti h x o ds w0 (w : world) f z : on h x o ds w0 w -> oI o f = Some z -> exists w', lift (geti f) w = IOk z w' /\ on h x o ds w0 w'.
Proof. intros H E. assert (E' : oI (wO w) f = Some z) by (now rewrite (proj1 H)). eexists. split; [exact (geti_ok f w z E')|]. destruct w. exact H. Qed.

Theorem no_surface_throws version x (w : world) ns mn vb : lucky S w -> open_ok w -> oI (wO w) I_verbose = Some vb ->
  oI (wO w) I_ns_in = Some ns -> 0 <= ns <= 2147483643 -> oI (wO w) I_mnboz = Some mn -> 1 <= mn <= 2147483644 -> asize (oN (wO w) N_compute_surfs) = 0 ->
  exists w', write_boozmn S version x w = IThrow "NetCDF: NC_UNLIMITED size already in use" w' /\
    wO w' = wO w /\ wFS w' x = Some Torn /\ exists f, wOpen w' = (wNext w, Writing x f) :: wOpen w.
Proof.
  intros L Op V En Bn Em Bm C. match goal with |- exists w', _ = IThrow ?e _ /\ ?Q => change (throws e (write_boozmn S version x w) (fun w' => Q)) end. unfold write_boozmn.
  assert (K : exists w1, chatter S (out ("Writing output to " ++ x) [] []) w = IOk tt w1 /\ wO w1 = wO w /\ wQ w1 = [] /\ wNext w1 = wNext w /\ wOpen w1 = wOpen w).
  { unfold chatter, lift, geti. cbn. rewrite V. cbn. destruct (0 <? vb); eexists; (split; [reflexivity|]); auto. }
  destruct K as (w1 & K & O1 & Q1 & N1 & P1). eapply throws_later; [exact K|]. clear K.
  assert (K : exists w2, new_writer S x w1 = IOk (mkWr (wNext w) []) w2 /\ on (wNext w) x (wO w) [] w w2).
  { unfold new_writer, nc_create, ibind, Nc.call. rewrite Q1. cbn. rewrite N1. eexists. split; [reflexivity|]. unfold on. cbn. rewrite String.eqb_refl, P1. auto. }
  destruct K as (w2 & K & H2). eapply throws_later; [exact K|]. clear K.
  destruct (on_geti _ _ _ _ _ _ _ _ H2 En) as (w3 & K & H3). eapply throws_later; [exact K|]. clear K.
  eapply throws_later with (a := ns + 1). { unfold lift, iadd, int_, in_int. rewrite (proj2 (Z.leb_le _ _)) by (unfold INT_MIN; lia). rewrite (proj2 (Z.leb_le _ _)) by (unfold INT_MAX; lia). reflexivity. }
  assert (H3' : on (wNext w) x (wO w) [] w (addEv (setO w3 (wO w3)) [])) by (destruct w3; exact H3).
  destruct (wdim_next _ _ _ _ _ _ [] "radius" (ns + 1) H3') as (w4 & K & H4); [lia|reflexivity|reflexivity|]. eapply throws_later; [exact K|]. clear K.
  destruct (on_geti _ _ _ _ _ _ _ _ H4 Em) as (w5 & K & H5). eapply throws_later; [exact K|]. clear K.
  destruct (wdim_next _ _ _ _ _ _ [] "mn_mode" mn H5) as (w6 & K & H6); [lia|lia|reflexivity|]. eapply throws_later; [exact K|]. clear K.
  destruct (wdim_next _ _ _ _ _ _ [] "mn_modes" mn H6) as (w7 & K & H7); [lia|lia|reflexivity|]. eapply throws_later; [exact K|]. clear K.
  eapply throws_later with (a := 0). { unfold lift, sizen. cbn. rewrite (proj1 H7), C. reflexivity. }
  assert (H7' : on (wNext w) x (wO w) ((([] ++ [("radius"%string, ns + 1)]) ++ [("mn_mode"%string, mn)]) ++ [("mn_modes"%string, mn)]) w (addEv (setO w7 (wO w)) [])).
  { destruct w7. destruct H7 as (X & H7). cbn in X. subst. split; [reflexivity|exact H7]. }
  destruct (wdim_next _ _ _ _ _ _ [] "comput_surfs" 0 H7') as (w8 & K & H8); [lia| |reflexivity|].
  { intros _. cbn. rewrite !(proj2 (Z.eqb_neq _ _)) by lia. reflexivity. }
  eapply throws_later; [exact K|]. clear K.
  apply throws_here. eexists. split; [eapply wdim_taken; [exact H8|cbn; now rewrite !orb_true_r]|].
  destruct H8 as (A1 & _ & A3 & A4 & _). eauto.
Qed.

Theorem written_exactly version x (w : world) i : after_run (wO w) i -> fluxes_ok (wO w) (nsin i + 1) -> nsurf i <= 2147483644 -> nsin i <= 2147483643 ->
  (String.length version < 2000)%nat -> open_ok w -> lucky S w ->
  ((exists w', write_boozmn S version x w = IOk tt w') <-> 1 <= nsurf i).
Proof.
  intros A F B1 B2 B3 Op L. split.
  - intros (w' & E). destruct (write_needs _ _ _ _ E) as (ns & mn & _ & _ & _ & _ & H).
    destruct (after_run_holds S (wO w) i A) as (_ & R & _). pose proof (vec_is_asize _ _ _ (r_surf _ _ _ R)). lia.
  - intros H. destruct (write_lucky S version x w i) as (pi & pp & ch & pr & w' & _ & _ & E & _); auto.
    { constructor; auto. }
    exists w'. exact E.
Qed.
Theorem run_then_throws version x (w : world) i : after_run (wO w) i -> nsin i <= 2147483643 -> nsurf i = 0 -> open_ok w -> lucky S w ->
  exists w', write_boozmn S version x w = IThrow "NetCDF: NC_UNLIMITED size already in use" w' /\
    wO w' = wO w /\ wFS w' x = Some Torn /\ exists f, wOpen w' = (wNext w, Writing x f) :: wOpen w.
Proof.
  intros A B N Op L. destruct (after_run_holds S (wO w) i A) as (O & R & Q & _). pose proof (mnboz_fits S i O) as Hm. pose proof (ok_nsin _ _ O).
  assert (V : oI (wO w) I_verbose = Some (verb i)) by (destruct A as (o0 & o1 & ev & v & _ & _ & _ & V); exact V).
  assert (C : asize (oN (wO w) N_compute_surfs) = 0) by (pose proof (vec_is_asize _ _ _ (r_surf _ _ _ R)); lia).
  apply (no_surface_throws version x w (nsin i) (mnboz i) (verb i) L Op V); [apply R|lia|apply Q|lia|exact C].
Qed.
End NoSurf.

(** ** A case *)
Section Case.
Variable S : Scalar.
(** Read a wout file, select no surface, run(), write to the name of the boozmn file that is there *)
Definition none_selected : list (call S) := [ReadWout "wout.nc" false; PutInts N_compute_surfs 0 (fun j => j); PutInt I_verbose 0; Run].
Theorem none_case : exists w1 w2, performs "0.0.8" none_selected (bx S) w1 /\ exec "0.0.8" (Write "b.nc") w1 = IThrow "NetCDF: NC_UNLIMITED size already in use" w2 /\
  lucky S w1 /\ open_ok w1 /\ wO (bx S) = obj_new S /\ wFS w1 "b.nc" = Some (Whole (bfile_of S (bex S))) /\ wFS w2 "b.nc" = Some Torn.
Proof.
  assert (H : there (after S "0.0.8" none_selected (bx S)) (fun w1 => wQ w1 = [] /\ wOpen w1 = [] /\ wFS w1 "b.nc" = Some (Whole (bfile_of S (bex S))) /\
    match write_boozmn S "0.0.8" "b.nc" w1 with IThrow m w2 => m = "NetCDF: NC_UNLIMITED size already in use"%string /\ wFS w2 "b.nc" = Some Torn | _ => False end)).
  { vm_compute. repeat split. }
  destruct (after S "0.0.8" none_selected (bx S)) as [w1|] eqn:E; [|contradiction]. cbn [there] in H. destruct H as (H1 & H2 & H3 & H4).
  destruct (write_boozmn S "0.0.8" "b.nc" w1) as [| m w2| |] eqn:Ew; try contradiction. destruct H4 as (-> & H4).
  exists w1, w2. split; [now apply after_performs|]. split; [exact Ew|]. split; [exact H1|]. split; [unfold open_ok; rewrite H2; constructor|]. auto.
Qed.
Theorem none_after_run : exists (w : world S) i, after_run (wO w) i /\ fluxes_ok (wO w) (nsin i + 1) /\ nsurf i = 0 /\ nsin i <= 2147483643 /\ open_ok w /\ lucky S w.
Proof.
  set (i := tiny (S := S) 2 1 1 1 0 0 0 0).
  assert (V : valid (obj_of i) i).
  { split; [|apply (tiny_repr 2 1 1 1 0 0 0 0); lia].
    constructor; unfold i; cbn [tiny nfp mpol ntor mnmax mpolq ntorq mnmaxq nsin mboz nboz nsurf xm xn xmq xnq surf];
    unfold INT_MAX; try (intros; lia); try (vm_compute; discriminate);
    intros k _; split; vm_compute; discriminate. }
  destruct (run_total _ _ V) as (o & H1 & H2 & _).
  exists (mkW o (fun _ => None) [] 0 [] []), i. splits; auto; try reflexivity; [eapply after_run_intro; [exact V|exact H1]| |cbn; lia|constructor].
  left. cbn [wO]. rewrite (rf_A _ _ _ _ H2) by reflexivity. reflexivity.
Qed.
End Case.


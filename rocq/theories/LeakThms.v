(** C45, C52 and C53 for any history, object and file. *)
From Coq Require Import ZArith List String Bool Lia.
From Verif Require Import Scalar Prog Model Wp Func Spec Vmec VmecSpec VmecThms Nc NcModel NcSpec NcVoc NcThms NcThms4 Py Frame FrameThms Sound SoundThms SoundEx
  Stored WrittenThm VmecNeeds Leak.
Import ListNotations.
Local Open Scope Z_scope.

Section LeakThms.
Context {S : Scalar}.
Notation obj := (obj S).
Notation world := (world S).

(** ** Handles *)
Lemma lift_world {A} (p : prog S A) (w : world) : match lift p w with
  | IOk _ w' | IThrow _ w' => wOpen w' = wOpen w /\ wNext w' = wNext w | IUB _ => True | IDie _ => False end.
Proof. unfold lift. destruct (run p (wO w)); cbn; auto. Qed.
(** One call: a normal return closes what was opened; an exception leaves at most one file open *)
Lemma step_handles version (c : call S) (w : world) : open_ok w -> match exec version c w with
  | IOk _ w' => wOpen w' = wOpen w /\ open_ok w'
  | IThrow _ w' => open_ok w' /\ (wOpen w' = wOpen w \/ exists p, wOpen w' = p :: wOpen w)
  | _ => True end.
Proof.
  intros O.
  assert (L : forall A (p : prog S A), match lift p w with
    | IOk _ w' => wOpen w' = wOpen w /\ open_ok w'
    | IThrow _ w' => open_ok w' /\ (wOpen w' = wOpen w \/ exists p, wOpen w' = p :: wOpen w)
    | _ => True end).
  { intros A p. pose proof (lift_world p w) as K. destruct (lift p w); auto; destruct K as (K1 & K2); split; auto; eapply open_ok_more; eauto; lia. }
  destruct c; unfold exec; try apply L.
  - split; [reflexivity|exact O].
  - destruct (rw_int f); [|now split; auto]. destruct (in_int v); [apply L|now split; auto].
  - destruct (rw_bool f); [apply L|now split; auto].
  - destruct (rw_flt f); [apply L|now split; auto].
  - destruct (rw_ints f); [apply L|now split; auto].
  - destruct (rw_arr f); [|now split; auto]. destruct (is_vector f && negb (c =? 1)%nat); [now split; auto|apply L].
  - pose proof (wout_ends x flux w O) as K. destruct (read_wout S x flux w); cbn in K; auto; [tauto|].
    destruct K as (_ & K1 & [(_ & K)|[(f & _ & K)|(_ & K)]]); eauto.
  - pose proof (write_ends version x w O) as K. destruct (write_boozmn S version x w); cbn in K; auto; [tauto|].
    destruct K as (K1 & [(_ & _ & K)|(_ & _ & f & K)]); eauto.
  - pose proof (boozmn_ends x w O) as K. destruct (read_boozmn S x w); cbn in K; auto; [tauto|].
    destruct K as (_ & K1 & [(_ & K)|[(f & _ & K)|(_ & K)]]); eauto.
  - split; [reflexivity|exact O].
Qed.
(** Calls one after the other: [n] of them ended in an exception *)
Inductive fails_in version : nat -> list (call S) -> world -> world -> Prop :=
| fi_nil w : fails_in version 0 [] w w
| fi_ok n c l w w1 w2 : exec version c w = IOk tt w1 -> fails_in version n l w1 w2 -> fails_in version n (c :: l) w w2
| fi_exn n c l w m w1 w2 : exec version c w = IThrow m w1 -> fails_in version n l w1 w2 -> fails_in version (1 + n) (c :: l) w w2.
Theorem handles_kept version n l (w w' : world) : fails_in version n l w w' -> open_ok w ->
  open_ok w' /\ exists new, wOpen w' = new ++ wOpen w /\ (List.length new <= n)%nat.
Proof.
  induction 1 as [w|n c l w w1 w2 E _ IH|n c l w m w1 w2 E _ IH]; intros O.
  - split; [exact O|]. exists []. auto.
  - pose proof (step_handles version c w O) as K. rewrite E in K. destruct K as (K1 & K2). destruct (IH K2) as (O2 & new & E2 & B).
    split; [exact O2|]. exists new. split; [congruence|exact B].
  - pose proof (step_handles version c w O) as K. rewrite E in K. destruct K as (K2 & K1). destruct (IH K2) as (O2 & new & E2 & B).
    split; [exact O2|]. destruct K1 as [K1|(p & K1)].
    + exists new. split; [congruence|lia].
    + exists (new ++ [p]). rewrite E2, K1, <- app_assoc. split; [reflexivity|]. rewrite app_length. cbn. lia.
Qed.

(** ** The same, separately for files and handles *)
Theorem write_disk version x (w : world) : open_ok w ->
  match write_boozmn S version x w with
  | IOk _ w' => exists f, wFS w' x = Some (Whole f) /\ forall y, y <> x -> wFS w' y = wFS w y
  | IThrow _ w' | IDie w' => (forall y, y <> x -> wFS w' y = wFS w y) /\
      (~ next_works w /\ wFS w' x = wFS w x \/ next_works w /\ wFS w' x = Some Torn)
  | IUB _ => True
  end.
Proof.
  intros O. pose proof (write_ends version x w O) as K.
  assert (X : forall d, with_file (wFS w) x d x = Some d) by (intros d; unfold with_file; now rewrite String.eqb_refl).
  assert (Y : forall d y, y <> x -> with_file (wFS w) x d y = wFS w y) by (intros d y H; unfold with_file; apply String.eqb_neq in H; now rewrite H).
  destruct (write_boozmn S version x w) as [a w'|e w'|y|w']; cbn in K; auto.
  - destruct K as ((f & K) & _). exists f. split; [now rewrite K|]. intros y H. rewrite K. now apply Y.
  - destruct K as (_ & [(K1 & K2 & _)|(K1 & K2 & _)]); rewrite K2; auto.
  - destruct K as [(K1 & K2)|(K1 & K2)]; rewrite K2; auto.
Qed.
Theorem read_disk x fl (w : world) : open_ok w ->
  (forall w', leaves "" (ReadBoozmn x) w w' -> wFS w' = wFS w) /\ (forall w', leaves "" (ReadWout x fl) w w' -> wFS w' = wFS w).
Proof.
  intros O. pose proof (boozmn_ends x w O) as K1. pose proof (wout_ends x fl w O) as K2. split; intros w' [E|[(m & E)|E]]; cbn [exec] in E.
  all: first [rewrite E in K1|rewrite E in K2]; cbn in *; tauto.
Qed.
Theorem boozmn_handles x (w : world) : open_ok w ->
  match read_boozmn S x w with
  | IOk _ w' => wOpen w' = wOpen w
  | IThrow _ w' => (forall f, ~ can_open w x f) /\ wOpen w' = wOpen w \/
      exists f, can_open w x f /\ wOpen w' = (wNext w, Reading f) :: wOpen w
  | _ => True
  end.
Proof. intros O. pose proof (boozmn_ends x w O) as K. destruct (read_boozmn S x w); cbn in K; tauto. Qed.
Theorem wout_handles x fl (w : world) : open_ok w ->
  match read_wout S x fl w with
  | IOk _ w' => wOpen w' = wOpen w
  | IThrow e w' => (forall f, ~ can_open w x f) /\ wOpen w' = wOpen w \/
      (exists f, can_open w x f /\ wOpen w' = (wNext w, Reading f) :: wOpen w) \/
      (exists o v o' ev, run (init_from_vmec S v) o = RThrow e o' ev) /\ wOpen w' = wOpen w
  | _ => True
  end.
Proof. intros O. pose proof (wout_ends x fl w O) as K. destruct (read_wout S x fl w); cbn in K; tauto. Qed.
Theorem write_handles version x (w : world) : open_ok w ->
  match write_boozmn S version x w with
  | IOk _ w' => wOpen w' = wOpen w
  | IThrow _ w' => ~ next_works w /\ wOpen w' = wOpen w \/
      next_works w /\ exists f, wOpen w' = (wNext w, Writing x f) :: wOpen w
  | _ => True
  end.
Proof. intros O. pose proof (write_ends version x w O) as K. destruct (write_boozmn S version x w); cbn in K; tauto. Qed.

(** ** Writing before there are results *)
Theorem no_results_never version l x (w w1 w2 : world) : oI (wO w) I_mnboz = None -> wf_obj (wO w1) -> performs version l w w1 ->
  forallb (fun c => negb (brings_results c)) l = true -> write_boozmn S version x w1 <> IOk tt w2.
Proof.
  intros N W P B E. pose proof (results_kept version l w w1 P B (MI I_mnboz)) as K. cbn in K. specialize (K ltac:(tauto)).
  destruct (boozmn_written version x w1 w2 W E) as (f & _ & mn & ns & nb & asy & E1 & _). congruence.
Qed.
Theorem new_never version l x (w w1 w2 : world) : wO w = obj_new S -> performs version l w w1 ->
  forallb (fun c => negb (brings_results c)) l = true -> write_boozmn S version x w1 <> IOk tt w2.
Proof.
  intros N P B. eapply no_results_never; eauto; [now rewrite N|]. eapply sound_object; eauto.
Qed.
Definition isub {A} (r : ires S A) : Prop := exists why, r = IUB why.
Lemma isub_here {A B} (m : io S A) (k : A -> io S B) w : isub (m w) -> isub (ibind m k w).
Proof. intros (y & E). exists y. unfold ibind. now rewrite E. Qed.
Lemma isub_later {A B} (m : io S A) (k : A -> io S B) w a w' : m w = IOk a w' -> isub (k a w') -> isub (ibind m k w).
Proof. intros E H. unfold ibind. now rewrite E. Qed.
Lemma geti_ub f (w : world) : oI (wO w) f = None -> isub (lift (geti f) w).
Proof. intros E. unfold lift, geti. cbn. rewrite E. eexists. reflexivity. Qed.
Lemma geti_ok f (w : world) z : oI (wO w) f = Some z -> lift (geti f) w = IOk z (addEv (setO w (wO w)) []).
Proof. intros E. unfold lift, geti. cbn. rewrite E. reflexivity. Qed.
Theorem no_results_ub version x (w : world) : lucky S w -> oI (wO w) I_mnboz = None ->
  match oI (wO w) I_ns_in with None => True | Some n => -1 <= n <= 2147483643 end ->
  exists why, write_boozmn S version x w = IUB why.
Proof.
  intros L N B. change (isub (write_boozmn S version x w)). unfold write_boozmn.
  assert (C : isub (chatter S (out ("Writing output to " ++ x) [] []) w) \/
    exists w1, chatter S (out ("Writing output to " ++ x) [] []) w = IOk tt w1 /\ wO w1 = wO w /\ wQ w1 = []).
  { unfold chatter, lift, geti. cbn. destruct (oI (wO w) I_verbose) as [v|]; [right|left; eexists; reflexivity].
    cbn. destruct (0 <? v); eexists; (split; [reflexivity|]); auto. }
  destruct C as [C|(w1 & C & O1 & Q1)]; [now apply isub_here|]. eapply isub_later; [exact C|]. clear C. rewrite <- O1 in N, B. clear O1 L w.
  assert (C : exists w2, new_writer S x w1 = IOk (mkWr (wNext w1) []) w2 /\ wO w2 = wO w1 /\ wQ w2 = [] /\ handle w2 (wNext w1) = Some (Writing x (mkFile [] []))).
  { unfold new_writer, nc_create, ibind, Nc.call. rewrite Q1. eexists. split; [reflexivity|]. cbn. repeat split; [exact Q1|]. unfold handle. cbn. now rewrite Z.eqb_refl. }
  destruct C as (w2 & C & O2 & Q2 & H2). eapply isub_later; [exact C|]. clear C. rewrite <- O2 in N, B.
  destruct (oI (wO w2) I_ns_in) as [n|] eqn:En; [|apply isub_here; now apply geti_ub].
  eapply isub_later; [apply geti_ok; exact En|].
  eapply isub_later with (a := n + 1). { unfold lift, iadd, int_, in_int. rewrite (proj2 (Z.leb_le _ _)) by (unfold INT_MIN; lia). rewrite (proj2 (Z.leb_le _ _)) by (unfold INT_MAX; lia). reflexivity. }
  eapply isub_later with (a := tt).
  { unfold wdim, nc_def_dim, define, ibind, Nc.call. cbn [wQ addEv setO wr_id]. rewrite Q2. unfold handle. cbn [wOpen addEv setO]. unfold handle in H2.
    destruct (find _ (wOpen w2)) as [q|]; [|discriminate]. injection H2 as ->.
    rewrite (proj2 (Z.ltb_ge _ _)) by lia. rewrite (proj2 (Z.ltb_ge _ _)) by lia. cbn. rewrite andb_false_r. reflexivity. }
  apply isub_here. apply geti_ub. exact N.
Qed.

(** ** What a reading of a wout file needs *)
Lemma integers_fun f y l l' : @integers S f y l -> integers f y l' -> l = l'.
Proof.
  intros (v & E & H) (v' & E' & H'). rewrite E in E'. injection E' as <-. destruct (vr_val v) as [d|d|s]; [congruence| |contradiction].
  revert l' H'. induction H as [|c z d l Hc _ IH]; intros l' H'; inversion H' as [|? z' ? l2 Hc' H2]; subst; [reflexivity|].
  f_equal; [|now apply IH]. destruct c as [a|]; [|congruence]. destruct Hc as (n & E1 & ->). destruct Hc' as (n' & E2 & ->). congruence.
Qed.
Theorem wout_needs x fl (w w' : world) : wf_obj (wO w) -> read_wout S x fl w = IOk tt w' ->
  exists f ns p mn mnq vb, wFS w x = Some (Whole f) /\ integers f "ns" [Some ns] /\
    oI (wO w') I_nfp = Some p /\ oI (wO w') I_mnmax = Some mn /\ oI (wO w') I_mnmax_nyq = Some mnq /\ oI (wO w') I_verbose = Some vb /\
    2 <= ns /\ p <> 0 /\ 1 <= mn /\ 1 <= mnq /\
    (ns = 2 -> forall k, elemN (wO w') N_xm k <> Some (Some 1)) /\ (1 < vb -> 4 <= ns /\ 4 <= mn).
Proof.
  intros W E. destruct (wout_stores x fl w w' W E) as (f & F & ns & mn & mnq & asy & v & o & ev & R & En & Ens & E1 & E2 & _ & _ & E3 & E4 & E5 & (m & n & p & _ & _ & E6 & E7 & _) & _).
  pose proof (spares_run vmec_members _ o (spares_vmec v)) as Sp. rewrite R in Sp.
  assert (SI : forall k, ~ In (MI k) vmec_members -> oI (wO w') k = oI o k) by (intros k Hk; exact (Sp (MI k) Hk)).
  assert (SN : forall k, k <> N_compute_surfs -> oN (wO w') k = oN o k).
  { intros k Hk. apply (Sp (MN k)). cbn. intuition congruence. }
  assert (Fi : modes_fit o).
  { intros k Hk. rewrite <- SN by (intros ->; cbn in Hk; intuition discriminate). unfold asize.
    destruct Hk as [<-|[<-|[<-|[<-|[]]]]].
    - destruct (proj1 (E4 "xm"%string N_xm (or_introl eq_refl))) as (A1 & A2 & A3). now rewrite A1, A2, A3.
    - destruct (proj1 (E4 "xn"%string N_xn (or_intror (or_introl eq_refl)))) as (A1 & A2 & A3). now rewrite A1, A2, A3.
    - destruct (proj1 (E5 "xm_nyq"%string N_xm_nyq (or_introl eq_refl))) as (A1 & A2 & A3). now rewrite A1, A2, A3.
    - destruct (proj1 (E5 "xn_nyq"%string N_xn_nyq (or_intror (or_introl eq_refl)))) as (A1 & A2 & A3). now rewrite A1, A2, A3. }
  destruct (returned_needs_fit o v _ ev Fi R) as (n0 & mn0 & mq0 & nt & ntq & mp & vb & G1 & G2 & G3 & G4 & G5 & G6 & G7 & N1 & N2 & N3 & N4 & N5 & _).
  rewrite SI in E1, E2, E6 by (cbn; intuition discriminate).
  assert (mn0 = mn) by congruence. assert (mq0 = mnq) by congruence. subst mn0 mq0. rewrite En in *.
  exists f, ns, p, mn, mnq, vb. rewrite !SI by (cbn; intuition discriminate). repeat (split; [assumption|]).
  split; [|exact N5]. intros H2 k. unfold elemN. rewrite SN by discriminate. exact (N4 H2 k).
Qed.
Theorem nfp_0_never x fl (w w' : world) f : wf_obj (wO w) -> wFS w x = Some (Whole f) -> integers f "nfp" [Some 0] -> read_wout S x fl w <> IOk tt w'.
Proof.
  intros W F I E. destruct (wout_stores x fl w w' W E) as (f' & F' & ns & mn & mnq & asy & v & o & ev & R & En & Ens & E1 & E2 & _ & _ & E3 & _ & _ & (m & n & p & _ & _ & E6 & E7 & _) & _).
  rewrite F in F'. injection F' as <-. destruct (E3 "nfp"%string I_nfp (or_introl eq_refl)) as (l & I' & [-> | ->]).
  - pose proof (integers_fun _ _ _ _ I I'). discriminate.
  - pose proof (integers_fun _ _ _ _ I I') as K. injection K as K. congruence.
Qed.
End LeakThms.

(** ** Cases *)
Section Cases.
Variable S : Scalar.
Fixpoint after_n version (l : list (call S)) (w : world S) : option (nat * world S) :=
  match l with
  | [] => Some (0%nat, w)
  | c :: l => match exec version c w with
      | IOk _ w' => after_n version l w'
      | IThrow _ w' => match after_n version l w' with Some (n, w2) => Some ((1 + n)%nat, w2) | None => None end
      | _ => None end
  end.
Lemma after_n_fails version l : forall w n w', after_n version l w = Some (n, w') -> fails_in version n l w w'.
Proof.
  induction l as [|c l IH]; intros w n w' H; cbn in H; [injection H as <- <-; constructor|].
  destruct (exec version c w) as [[] w1|m w1|y|w1] eqn:E; try discriminate H; [eapply fi_ok; eauto|].
  destruct (after_n version l w1) as [[k w2]|] eqn:E2; [|discriminate H]. injection H as <- <-. eapply fi_exn; eauto.
Qed.
(** a file without gmn_b is read three times *)
Definition bad_read : world S := desk S (obj_new S) (shelf S (without S "gmn_b" (bfile_of S (bex S)))) [].
Theorem three_leaks : exists w', fails_in "0.0.8" 3 [ReadBoozmn "b.nc"; ReadBoozmn "b.nc"; New; ReadBoozmn "b.nc"] bad_read w' /\
  open_ok bad_read /\ wOpen bad_read = [] /\ map fst (wOpen w') = [2; 1; 0].
Proof.
  assert (H : there (after_n "0.0.8" [ReadBoozmn "b.nc"; ReadBoozmn "b.nc"; New; ReadBoozmn "b.nc"] bad_read)
    (fun p => fst p = 3%nat /\ map fst (wOpen (snd p)) = [2; 1; 0])) by (vm_compute; repeat split).
  destruct (after_n _ _ _) as [[n w']|] eqn:E; [|contradiction]. cbn in H. destruct H as (-> & H). exists w'.
  split; [now apply after_n_fails|]. split; [apply desk_open|]. split; [reflexivity|exact H].
Qed.
Definition first_write : list (call S) := [ReadWout "wout.nc" false; PutInt I_mboz 2; ReadWout "none.nc" true].
Theorem first_write_case : exists w1, performs "0.0.8" first_write (bx S) w1 /\ wO (bx S) = obj_new S /\
  forallb (fun c => negb (brings_results c)) first_write = true /\ lucky S w1 /\ oI (wO w1) I_mnboz = None /\ oI (wO w1) I_ns_in = Some 3.
Proof.
  assert (H : there (after S "0.0.8" first_write (bx S)) (fun w1 => wQ w1 = [] /\ oI (wO w1) I_mnboz = None /\ oI (wO w1) I_ns_in = Some 3)).
  { vm_compute. repeat split. }
  destruct (after S "0.0.8" first_write (bx S)) as [w1|] eqn:E; [|contradiction]. destruct H as (H1 & H2 & H3).
  exists w1. split; [now apply after_performs|]. repeat split; assumption.
Qed.
Theorem nfp_0_case : integers (wex0 S) "nfp" [Some 0] /\ exists w', read_wout S "wout.nc" false (bx S) = IOk tt w' /\ wf_obj (wO (bx S)).
Proof.
  split; [eexists; split; reflexivity|].
  assert (H : match read_wout S "wout.nc" false (bx S) with IOk _ _ => True | _ => False end) by (vm_compute; exact Logic.I).
  destruct (read_wout S "wout.nc" false (bx S)) as [[] w'| | |] eqn:E; try contradiction. exists w'. split; [reflexivity|]. apply tidy_wf, tidy_new.
Qed.
End Cases.

(** The theorems about the two programs, and concrete cases. *)
From Coq Require Import ZArith QArith List String Ascii Bool Lia Sorted Permutation.
From Verif Require Import Scalar Prog Model Wp Func Step TrigProof InitProof RunProof Par FuncExt Spec RunThms
  Vmec VmecSpec VmecRun VmecThms Nc NcModel NcSpec NcTri NcRead NcBoozmn NcWout NcWrite NcWriteB NcVoc NcThms NcThms2 NcEdit NcThms3 NcThms4
  Driver DriverSpec DriverParse DriverQuiet DriverProof BadSurf.
Import ListNotations.
Local Open Scope Z_scope.

Section Thms.
Variable S : Scalar.
Notation obj := (obj S).
Notation world := (world S).
Notation io := (io S).

(** ** C47 *)
Theorem same_parse text mb nb ext l : control text mb nb ext l -> forall a a' (w : world), exists ev ev',
  driver_read S a (Some text) w = IOk (mb, nb, ext, l) (addEv w ev) /\ cli_read S a' (Some text) w = IOk (mb, nb, ext, l) (addEv w ev').
Proof.
  intros C a a' w. destruct (cli_reads S text mb nb ext l a' w C) as (e & E & _). eexists. eexists. split; [apply driver_reads; exact C|exact E].
Qed.
Lemma work_alike conv version mb nb ext l : INT_MIN <= mb <= INT_MAX -> INT_MIN <= nb <= INT_MAX ->
  conv (sort l) = Some (sort l) -> alike S (driver_work S version (mb, nb, ext, l)) (cli_work S conv version (mb, nb, ext, l)).
Proof.
  intros Hm Hn Hc. unfold driver_work, cli_work.
  apply alike_bind; [apply quiet_setobj|intro]. apply alike_bind; [apply quiet_read_wout|intro].
  apply alike_bind; [apply quiet_lift|intro]. apply alike_bind; [now apply alike_seti|intro].
  apply alike_bind; [apply quiet_lift|intro]. apply alike_bind; [now apply alike_seti|intro].
  apply alike_bind.
  { destruct l; [apply quiet_say|]. rewrite Hc. apply quiet_lift. }
  intro. apply alike_bind; [apply quiet_lift|intro]. apply alike_bind; [apply quiet_say|intro].
  apply alike_bind; [apply quiet_lift|intro]. apply alike_bind; [apply quiet_write_boozmn|intro].
  apply alike_bind; [apply quiet_say|intro]. apply quiet_ret.
Qed.
Lemma surfaces_int r l : surfaces r l -> Forall (fun z => INT_MIN <= z <= INT_MAX) l.
Proof. induction 1 as [|t r z zs Hz Hs IH|t r N]; constructor; auto. apply Hz. Qed.
Theorem interchangeable text mb nb ext l conv : control text mb nb ext l ->
  (forall l, Forall (fun z => INT_MIN <= z <= INT_MAX) l -> conv l = Some l) ->
  forall version pyversion a a' (w : world),
    same_result (driver S version [a] (Some text) w) (cli S conv version pyversion [a'] (Some text) w).
Proof.
  intros C Hc version pyversion a a' w. unfold driver, cli. rewrite !say_bind.
  destruct (cli_reads S text mb nb ext l a' (addEv w [mkEv ("This is xbooz_xform " ++ pyversion) [] []]) C) as (e & E & _).
  unfold ibind. rewrite (driver_reads S text mb nb ext l) by exact C. rewrite E.
  destruct C as (ta & tb & r & _ & (_ & Ha) & (_ & Hb) & Hs). apply work_alike; auto.
  - apply Hc. apply (Permutation_Forall (sort_perm l)). eapply surfaces_int; eauto.
  - repeat split.
Qed.

(** ** C46, C54 *)
Lemma driver_runs version (w : world) f text ext mb nb l srt asp i d a : control text mb nb ext l -> sorted_as l srt ->
  ready version w f ext mb nb srt asp i d ->
  tri (driver S version [a] (Some text)) w
    (fun z w' => z = 0 /\ wOpen w' = wOpen w /\ wcomplete S f i d /\ same_but S (boozmn_name ext) w w' /\
       exists bf, wFS w' (boozmn_name ext) = Some (Whole bf) /\ boozmn_of version (request i d mb nb srt) asp bf)
    (fun w' => kept_or_torn S (boozmn_name ext) w w' /\ (wQ w = [] -> ~ wcomplete S f i d /\ wFS w' = wFS w))
    (fun w' => kept_or_torn S (boozmn_name ext) w w' /\ wQ w <> []).
Proof.
  intros C Srt [R1 R2 R3 R4 R5 R6 R7 R8 R9 R10]. unfold driver, tri. rewrite say_bind. unfold ibind.
  rewrite (driver_reads S text mb nb ext l) by exact C. rewrite addEv2.
  match goal with |- context [driver_work S version _ ?w] => assert (Rd : ready version w f ext mb nb srt asp i d) by (constructor; auto);
    pose proof (work_spec S version w f ext mb nb l srt asp i d Rd Srt) as T end.
  exact T.
Qed.
(** The numbers in the output file *)
Lemma boozmn_contents version i asp bf : boozmn_of version i asp bf ->
  icell bf "mboz_b" 0 = Some (Some (mboz i)) /\ icell bf "nboz_b" 0 = Some (Some (nboz i)) /\
  (forall j, 0 <= j < nsurf i -> icell bf "jlist" j = Some (Some (surf i j + 2))) /\
  (forall x g, In (x, g) bvars_sym \/ (asym i = true /\ In (x, g) bvars_asym) -> forall k b, 0 <= k < mnboz i -> 0 <= b < nsurf i ->
     dcell bf x (b * mnboz i + k) = Some (Some (let c := o_coef i (surf i b) g k in
       if (if afield_eq_dec g A_numns_b then true else if afield_eq_dec g A_numnc_b then true else false) then fneg S c else c))) /\
  dcell bf "aspect_b" 0 = Some (Some asp).
Proof.
  intros ((o & Ar & As & _ & H) & _). destruct (after_run_holds S o i Ar) as (O & R & Q & _). splits.
  - destruct (hr_ints _ _ _ H "mboz_b"%string I_mboz) as (E & _); [cbn; auto|]. now rewrite (r_mboz _ _ _ R) in E.
  - destruct (hr_ints _ _ _ H "nboz_b"%string I_nboz) as (E & _); [cbn; auto|]. now rewrite (r_nboz _ _ _ R) in E.
  - intros j Hj. destruct (hr_jlist _ _ _ H j Hj) as (c & E1 & E2). rewrite (elemN_vec _ _ _ _ _ (r_surf _ _ _ R) Hj) in E1. now injection E1 as ->.
  - intros x g Hin k b Hk Hb. destruct (hr_mats _ _ _ H x g Hin k b Hk Hb) as (v & E1 & E2). rewrite E2.
    assert (Hg : In g (outs (asym i))).
    { unfold outs. destruct Hin as [Hin|(-> & Hin)].
      - assert (In g sym_outs) by (cbn in Hin; cbn; repeat destruct Hin as [X|Hin]; try injection X as <- <-; tauto).
        destruct (asym i); [apply in_or_app|]; auto.
      - apply in_or_app. right. cbn in Hin; cbn; repeat destruct Hin as [X|Hin]; try injection X as <- <-; tauto. }
    pose proof (elem2_mat _ _ _ _ _ k b (q_out _ _ _ Q g Hg) Hk Hb) as E3. rewrite E1 in E3. injection E3 as ->. reflexivity.
  - now rewrite (hr_aspect _ _ _ H), As.
Qed.

Theorem driver_result version (w : world) f text ext mb nb l srt asp i d a : control text mb nb ext l -> sorted_as l srt ->
  ready version w f ext mb nb srt asp i d -> lucky S w -> wcomplete S f i d ->
  exists w' bf, driver S version [a] (Some text) w = IOk 0 w' /\ wOpen w' = wOpen w /\
    (forall y, y <> boozmn_name ext -> wFS w' y = wFS w y) /\ wFS w' (boozmn_name ext) = Some (Whole bf) /\
    boozmn_of version (request i d mb nb srt) asp bf.
Proof.
  intros C Srt R L Cp. pose proof (driver_runs version w f text ext mb nb l srt asp i d a C Srt R) as T. unfold tri in T.
  destruct (driver S version [a] (Some text) w) as [z w'|m w'|y|w'].
  - destruct T as (-> & T1 & _ & T2 & bf & T3 & T4). exists w', bf. auto.
  - exfalso. now apply (proj2 T).
  - contradiction.
  - exfalso. now apply (proj2 T).
Qed.
(** In detail *)
Theorem driver_file version (w : world) f text ext mb nb l srt asp i d a : control text mb nb ext l -> sorted_as l srt ->
  ready version w f ext mb nb srt asp i d -> lucky S w -> wcomplete S f i d ->
  exists w' bf, driver S version [a] (Some text) w = IOk 0 w' /\ wFS w' (boozmn_name ext) = Some (Whole bf) /\
    icell bf "mboz_b" 0 = Some (Some (Z.max (6 * mpol i) mb)) /\
    icell bf "nboz_b" 0 = Some (Some (Z.max (Z.max (2 * ntor i - 1) 0) nb)) /\
    (l = [] -> lookup (nf_dims bf) "comput_surfs" = Some (d_ns S d - 1) /\ forall j, 0 <= j < d_ns S d - 1 -> icell bf "jlist" j = Some (Some (j + 2))) /\
    (l <> [] -> lookup (nf_dims bf) "comput_surfs" = Some (Z.of_nat (List.length l)) /\
       forall j, (j < List.length l)%nat -> exists s, nth_error srt j = Some s /\ icell bf "jlist" (Z.of_nat j) = Some (Some (s + 2))) /\
    (let r := request i d mb nb srt in
     forall x g, In (x, g) bvars_sym \/ (asym i = true /\ In (x, g) bvars_asym) -> forall k b, 0 <= k < mnboz r -> 0 <= b < nsurf r ->
       dcell bf x (b * mnboz r + k) = Some (Some (let c := o_coef r (surf r b) g k in
         if (if afield_eq_dec g A_numns_b then true else if afield_eq_dec g A_numnc_b then true else false) then fneg S c else c))).
Proof.
  intros C Srt R L Cp. destruct (driver_result version w f text ext mb nb l srt asp i d a C Srt R L Cp) as (w' & bf & E & _ & _ & E2 & B).
  pose proof (boozmn_contents _ _ _ _ B) as (K1 & K2 & K3 & K4 & _). destruct B as (_ & Dm & _). exists w', bf. destruct Srt as (P & _). splits; auto.
  - intros ->. apply Permutation_nil in P. subst srt. split.
    + rewrite Dm. reflexivity.
    + exact K3.
  - intros N. assert (Hl : List.length srt = List.length l) by (symmetry; now apply Permutation_length).
    destruct srt as [|s0 srt]; [exfalso; apply N; symmetry in P; now apply Permutation_nil in P|]. split.
    + rewrite Dm, <- Hl. reflexivity.
    + intros j Hj. rewrite <- Hl in Hj. exists (nth j (s0 :: srt) 0). split; [now apply nth_error_nth'|].
      specialize (K3 (Z.of_nat j)). cbn [request surf nsurf] in K3. rewrite Nat2Z.id in K3. apply K3. lia.
Qed.
Theorem driver_safe version (w : world) f text ext mb nb l srt asp i d a : control text mb nb ext l -> sorted_as l srt ->
  ready version w f ext mb nb srt asp i d ->
  (forall why, driver S version [a] (Some text) w <> IUB why) /\
  (forall z w', driver S version [a] (Some text) w = IOk z w' -> wOpen w' = wOpen w /\
     (forall y, y <> boozmn_name ext -> wFS w' y = wFS w y) /\
     exists bf, wFS w' (boozmn_name ext) = Some (Whole bf) /\ boozmn_of version (request i d mb nb srt) asp bf) /\
  (forall m w', driver S version [a] (Some text) w = IThrow m w' \/ driver S version [a] (Some text) w = IDie w' ->
     (forall y, y <> boozmn_name ext -> wFS w' y = wFS w y) /\
     (wFS w' (boozmn_name ext) = wFS w (boozmn_name ext) \/ wFS w' (boozmn_name ext) = Some Torn)) /\
  (lucky S w -> ~ wcomplete S f i d -> exists m w', driver S version [a] (Some text) w = IThrow m w' /\ wFS w' = wFS w).
Proof.
  intros C Srt R. pose proof (driver_runs version w f text ext mb nb l srt asp i d a C Srt R) as T. unfold tri in T.
  destruct (driver S version [a] (Some text) w) as [z w'|m w'|y|w']; splits; try discriminate; try contradiction.
  - intros z0 w0 E. injection E as <- <-. destruct T as (_ & T1 & _ & T2 & T3). auto.
  - intros m w0 [E|E]; discriminate.
  - intros L N. exfalso. now apply N.
  - intros m0 w0 [E|E]; [|discriminate]. injection E as <- <-. exact (proj1 T).
  - intros L N. exists m, w'. split; auto. now apply T.
  - intros m0 w0 [E|E]; [discriminate|]. injection E as <-. exact (proj1 T).
  - intros L. exfalso. now apply (proj2 T).
Qed.

(** ** C48 *)
Definition ub {A} (m : io A) (w : world) : Prop := exists y, m w = IUB y.
Lemma ub_bind {A B} (m : io A) (k : A -> io B) w : tri m w (fun a w' => ub (k a) w') (fun _ => False) (fun _ => False) -> ub (ibind m k) w.
Proof. unfold tri, ub, ibind. destruct (m w); try contradiction. auto. Qed.
Lemma ub_first {A B} (m : io A) (k : A -> io B) w : ub m w -> ub (ibind m k) w.
Proof. intros (y & E). exists y. unfold ibind. now rewrite E. Qed.
Lemma ub_lift {A} (p : Prog.prog S A) (w : world) : (exists y, run p (wO w) = RUB y) -> ub (lift p) w.
Proof. intros (y & E). exists y. unfold lift. now rewrite E. Qed.
Theorem driver_bad_surface text mb nb ext l : control text mb nb ext l ->
  forall version (w : world) f asp i d a, wFS w (wout_name ext) = Some (Whole f) -> good_wout f asp i d -> d_flux S d = false -> verb i = 1 ->
  open_ok w -> lucky S w -> Exists (fun z => ~ 0 <= z < d_ns S d - 1) l ->
  exists why, driver S version [a] (Some text) w = IUB why.
Proof.
  intros C version w f asp i d a Hf [(la & Wf & Ws) Cp Gk] Fx Hv Op L Bad. unfold driver. rewrite say_bind. unfold ibind at 1.
  rewrite (driver_reads S text mb nb ext l) by exact C. rewrite addEv2.
  match goal with |- context [driver_work S version _ ?u] => set (w0 := u) end.
  assert (Hf0 : wFS w0 (wout_name ext) = Some (Whole f)) by exact Hf. assert (Op0 : open_ok w0) by exact Op. assert (L0 : wQ w0 = []) by exact L.
  clearbody w0. clear w Hf Op L. change (ub (driver_work S version (mb, nb, ext, l)) w0). unfold driver_work.
  apply ub_bind, tri_setobj. apply ub_bind. change ("wout_" ++ ext ++ ".nc")%string with (wout_name ext).
  replace (read_wout S (wout_name ext) false) with (read_wout S (wout_name ext) (d_flux S d)) by now rewrite Fx.
  eapply tri_mono; [| | |eapply (fresh_wout S f la asp i d (wout_name ext) (setO w0 (obj_new S))); eauto; reflexivity].
  2: { cbv beta. cbn. intros w' (_ & E2). now apply E2. }
  2: { cbv beta. cbn. intros w' (_ & E2). now apply E2. }
  cbv beta. intros _ w1 (_ & _ & _ & _ & _ & R & _ & _ & W1). set (o1 := wO w1) in *.
  apply ub_bind, tri_lift. eapply wp_geti; [exact (r_mboz _ _ _ R)|]. cbn [wp].
  apply ub_bind, tri_lift. cbn [wp seti]. split; [exact Logic.I|].
  apply ub_bind, tri_lift. eapply wp_geti; [cbn; exact (r_nboz _ _ _ R)|]. cbn [wp].
  apply ub_bind, tri_lift. cbn [wp seti]. split; [exact Logic.I|].
  apply ub_bind. destruct l as [|z l]; [inversion Bad|]. pose proof (sort_perm (z :: l)) as P. remember (sort (z :: l)) as srt eqn:Es. clear Es.
  apply tri_lift. cbn [wp setn]. split; [exact Logic.I|]. rewrite app_nil_r || idtac.
  match goal with |- ub _ ?u => set (w2 := u) end.
  assert (Sf : oN (wO w2) N_compute_surfs = int_array srt) by reflexivity.
  assert (Si : oA (wO w2) A_s_in = oA o1 A_s_in) by reflexivity.
  assert (W2 : wf_obj (wO w2)).
  { constructor; intros g; cbn [w2 wO addEv setO oN oA updN updI]; [|apply W1].
    destruct (nfield_eq_dec g N_compute_surfs); [split; [eapply vec_is_wf; apply int_array_is|reflexivity]|apply W1]. }
  clearbody w2.
  assert (V : vec_is (oN (wO w2) N_compute_surfs) (Z.of_nat (List.length srt)) (fun k => nth (Z.to_nat k) srt 0)) by (rewrite Sf; apply int_array_is).
  destruct (elems_run S (wO w2) _ _ V) as (l2 & El).
  apply ub_bind. unfold tri, lift. rewrite El. apply ub_bind. unfold tri, say.
  apply ub_first, ub_lift. cbn [wO addEv setO].
  apply Exists_exists in Bad. destruct Bad as (y & Iy & By). apply (Permutation_in _ P) in Iy. apply (In_nth _ _ 0) in Iy. destruct Iy as (k & Hk & Ek).
  apply (bad_surface S (wO w2) (Z.of_nat k) y W2).
  - rewrite (elemN_vec _ _ _ _ _ V) by lia. now rewrite Nat2Z.id, Ek.
  - rewrite Si. rewrite (vec_is_asize _ _ _ (r_sin _ _ _ R)). exact By.
Qed.

(** ** Malformed control files *)
Lemma skip_split s : exists b, s = (b ++ skip_ws s)%string /\ blank b.
Proof.
  induction s as [|c s (b & E & B)]; cbn.
  - exists EmptyString. split; [reflexivity|exact Logic.I].
  - destruct (c_space c) eqn:Ec.
    + exists (String c b). split; [cbn; congruence|]. split; [now apply c_space_iff|exact B].
    + exists EmptyString. split; [reflexivity|exact Logic.I].
Qed.
Theorem no_number_ub text : (forall s p r z, text = (s ++ p ++ r)%string -> blank s -> ~ number p z) ->
  forall a (w : world), exists why, driver_read S a (Some text) w = IUB why.
Proof.
  intros N a w.
  assert (X : exists m s, next_int (mkIns text false) None = (m, s) /\ bad s = true).
  { unfold next_int. cbn [bad rest]. destruct (skip_split text) as (b & E & B). destruct (skip_ws text) as [|c t]; [eauto|].
    destruct (sign (String c t)) as (neg & u) eqn:Eg. destruct u as [|c1 r]; [eauto|].
    destruct (is_digit c1) eqn:Ed; [|eauto]. exfalso. unfold is_digit in Ed. destruct (digit c1) as [z|] eqn:Ez; [|discriminate].
    assert (Sg : (c = c1 /\ r = t) \/ (c = "+"%char /\ t = String c1 r) \/ (c = "-"%char /\ t = String c1 r)).
    { destruct c as [[] [] [] [] [] [] [] []]; cbn in Eg; injection Eg as <- Eg; try (injection Eg as <- <-; left; split; reflexivity); auto. }
    destruct Sg as [(-> & ->)|[(-> & ->)|(-> & ->)]].
    - apply (N b (String c1 EmptyString) t z E B). left. now apply digits_pre.
    - apply (N b (String "+" (String c1 EmptyString)) r z E B). right. left. eexists. split; [reflexivity|]. now apply digits_pre.
    - apply (N b (String "-" (String c1 EmptyString)) r (- z) E B). right. right. eexists. split; [reflexivity|].
      rewrite Z.opp_involutive. now apply digits_pre. }
  destruct X as (m & s & E & B). unfold driver_read. rewrite E. unfold next_int. rewrite B. unfold ibind, ival.
  destruct m; cbn; eauto.
Qed.

(** ** A concrete case *)
Definition dtext : string := "8 2
x  2 0 # comment"%string.
Lemma in_char (c : ascii) l : existsb (Nat.eqb (nat_of_ascii c)) l = true -> In (nat_of_ascii c) l.
Proof. intros H. apply existsb_exists in H. destruct H as (n & H1 & H2). apply Nat.eqb_eq in H2. now rewrite H2. Qed.
Lemma not_in_char (c : ascii) l : existsb (Nat.eqb (nat_of_ascii c)) l = false -> ~ In (nat_of_ascii c) l.
Proof. intros H K. apply Bool.not_true_iff_false in H. apply H. apply existsb_exists. exists (nat_of_ascii c). split; auto. apply Nat.eqb_refl. Qed.
Ltac whi := apply in_char; reflexivity.
Ltac sol := split; [discriminate|]; cbn [every]; repeat split; apply not_in_char; reflexivity.
Lemma digit1 d : 0 <= d <= 9 -> digits_of (String (ascii_of_nat (48 + Z.to_nat d)) EmptyString) d.
Proof. intros H. constructor. split; auto. Qed.
Lemma dtext_tokens : tokens_of dtext ["8"; "2"; "x"; "2"; "0"; "#"; "comment"]%string.
Proof.
  refine (tk_more "" "8" _ _ _ _ _ _); [exact Logic.I|sol|right; eexists; eexists; split; [reflexivity|whi]|].
  refine (tk_more " " "2" _ _ _ _ _ _); [split; [whi|exact Logic.I]|sol|right; eexists; eexists; split; [reflexivity|whi]|].
  refine (tk_more (String (ascii_of_nat 10) "") "x" _ _ _ _ _ _); [split; [whi|exact Logic.I]|sol|right; eexists; eexists; split; [reflexivity|whi]|].
  refine (tk_more "  " "2" _ _ _ _ _ _); [split; [whi|split; [whi|exact Logic.I]]|sol|right; eexists; eexists; split; [reflexivity|whi]|].
  refine (tk_more " " "0" _ _ _ _ _ _); [split; [whi|exact Logic.I]|sol|right; eexists; eexists; split; [reflexivity|whi]|].
  refine (tk_more " " "#" _ _ _ _ _ _); [split; [whi|exact Logic.I]|sol|right; eexists; eexists; split; [reflexivity|whi]|].
  refine (tk_more " " "comment" "" _ _ _ _ _); [split; [whi|exact Logic.I]|sol|left; reflexivity|].
  constructor. exact Logic.I.
Qed.
Lemma number_head p z : number p z -> exists c t, p = String c t /\ (c = "+"%char \/ c = "-"%char \/ digit c <> None).
Proof.
  intros [H|[(t & -> & _)|(t & -> & _)]].
  - destruct (digits_head _ _ H) as (c & d & t & -> & E). exists c, t. split; auto. right. right. congruence.
  - exists "+"%char, t. auto.
  - exists "-"%char, t. auto.
Qed.
Lemma dtext_control : control dtext 8 2 "x" [2; 0].
Proof.
  exists "8"%string, "2"%string, ["2"; "0"; "#"; "comment"]%string. splits.
  - apply dtext_tokens.
  - split; [left; apply (digit1 8); lia|unfold INT_MIN, INT_MAX; lia].
  - split; [left; apply (digit1 2); lia|unfold INT_MIN, INT_MAX; lia].
  - constructor; [split; [left; apply (digit1 2); lia|unfold INT_MIN, INT_MAX; lia]|].
    constructor; [split; [left; apply (digit1 0); lia|unfold INT_MIN, INT_MAX; lia]|].
    constructor. intros p r z E N. destruct (number_head p z N) as (c & t & -> & H). cbn in E. injection E as <- _.
    destruct H as [H|[H|H]]; try discriminate. now apply H.
Qed.
Lemma dtext_sorted : sorted_as [2; 0] [0; 2].
Proof. split; [constructor|]. repeat constructor; lia. Qed.
Definition folder (f : ncfile S) (x : string) : option (disk S) := if String.eqb x "wout_x.nc" then Some (Whole f) else None.
Definition dworld (asy : bool) (q : list verdict) : world := desk S (obj_new S) (folder (wex S asy false)) q.
Lemma d_ok asy mb nb srt : mb <= 100 -> nb <= 100 -> Forall (fun x => 0 <= x < 3) srt -> Z.of_nat (List.length srt) <= 100 ->
  ok_inp (request (vex S asy 1 2 two_surfs) (vexd S false 4) mb nb srt).
Proof.
  intros H1 H2 H3 H4.
  assert (OK : ok_inp (from_vmec (vex S asy 1 2 two_surfs) (vexd S false 4))).
  { apply fits_ok; [apply vex_fits|apply (vex_accepted S asy false)|cbn; lia|cbn; lia]. }
  assert (K : 0 <= (match srt with [] => 4 - 1 | _ => Z.of_nat (List.length srt) end) <= 100) by (destruct srt; cbn [List.length] in *; lia).
  constructor; cbn [request from_vmec vex vexd nfp mpol ntor mpolq ntorq mnmax mnmaxq nsin nsurf mboz nboz xm xn xmq xnq surf d_ns];
    unfold INT_MAX; try lia.
  - unfold ntheta, nzeta. cbn [request from_vmec vex mboz nboz mpol ntor].
    destruct (Z.max (Z.max (2 * 1 - 1) 0) nb =? 0); nia.
  - unfold nzeta. cbn [request from_vmec vex mboz nboz mpol ntor].
    destruct (Z.max (Z.max (2 * 1 - 1) 0) nb =? 0); nia.
  - exact (ok_xm _ _ OK).
  - exact (ok_xn _ _ OK).
  - exact (ok_xmq _ _ OK).
  - exact (ok_xnq _ _ OK).
  - intros k Hk. destruct srt as [|s srt]; [lia|]. rewrite Forall_forall in H3. apply H3. apply nth_In. lia.
Qed.
Lemma d_ready asy q mb nb srt : mb <= 100 -> nb <= 100 -> Forall (fun x => 0 <= x < 3) srt -> Z.of_nat (List.length srt) <= 100 ->
  ready "0.0.8" (dworld asy q) (wex S asy false) "x" mb nb srt (fofZ S 3) (vex S asy 1 2 two_surfs) (vexd S false 4).
Proof.
  intros H1 H2 H3 H4. destruct (wex_good S asy false) as [G1 G2 G3]. constructor; auto; try reflexivity.
  - apply desk_open.
  - now apply d_ok.
  - destruct srt; [cbn; lia|]. cbn [request nsurf]. lia.
  - cbn. lia.
  - cbn. lia.
Qed.
Lemma d_complete asy : wcomplete S (wex S asy false) (vex S asy 1 2 two_surfs) (vexd S false 4).
Proof. apply (wex_good S asy false). Qed.

(** The requested resolution is not used. *)
Theorem request_refuted : exists version (w : world) f text ext mb nb l srt asp i d a w' bf,
  control text mb nb ext l /\ sorted_as l srt /\ ready version w f ext mb nb srt asp i d /\ lucky S w /\ wcomplete S f i d /\
  driver S version [a] (Some text) w = IOk 0 w' /\ wFS w' (boozmn_name ext) = Some (Whole bf) /\
  mb = 8 /\ icell bf "mboz_b" 0 = Some (Some 12) /\ l = [2; 0] /\ icell bf "jlist" 0 = Some (Some 2) /\ icell bf "jlist" 1 = Some (Some 4).
Proof.
  assert (R : ready "0.0.8" (dworld false []) (wex S false false) "x" 8 2 [0; 2] (fofZ S 3) (vex S false 1 2 two_surfs) (vexd S false 4)).
  { apply d_ready; cbn; try lia. repeat constructor; lia. }
  destruct (driver_result _ _ _ _ _ _ _ _ _ _ _ _ "in"%string dtext_control dtext_sorted R eq_refl (d_complete false)) as (w' & bf & E1 & _ & _ & E2 & E3).
  destruct (boozmn_contents _ _ _ _ E3) as (K1 & _ & K2 & _).
  exists "0.0.8"%string, (dworld false []), (wex S false false), dtext, "x"%string, 8, 2, [2; 0], [0; 2], (fofZ S 3),
    (vex S false 1 2 two_surfs), (vexd S false 4), "in"%string, w', bf.
  splits; auto using dtext_control, dtext_sorted, (d_complete false); try reflexivity.
  - apply (K2 0). cbn. lia.
  - apply (K2 1). cbn. lia.
Qed.

(** ** C48: a surface that does not exist *)
Definition ubz {A} (r : ires S A) : Prop := match r with IUB _ => True | _ => False end.
Lemma ubz_ex {A} (r : ires S A) : ubz r -> exists y, r = IUB y.
Proof. destruct r; cbn; try contradiction. eauto. Qed.
Theorem bad_surface_refuted :
  (exists why, driver S "0.0.8" ["in"%string] (Some "1 0 x 9"%string) (dworld false []) = IUB why) /\
  (exists why, driver S "0.0.8" ["in"%string] (Some "1 0 x -1"%string) (dworld false []) = IUB why) /\
  (exists why, cli S Some "0.0.8" "0.0.8" ["in"%string] (Some "1 0 x 9"%string) (dworld false []) = IUB why).
Proof. splits; apply ubz_ex; vm_compute; exact Logic.I. Qed.

(** ** C47: the differences *)
Definition gives {A} (r : ires S A) (a : A) : Prop := match r with IOk b _ => b = a | _ => False end.
Definition throws {A} (r : ires S A) : Prop := match r with IThrow _ _ => True | _ => False end.
Lemma gives_ex {A} (r : ires S A) a : gives r a -> exists w, r = IOk a w.
Proof. destruct r; cbn; try contradiction. intros ->. eauto. Qed.
Lemma throws_ex {A} (r : ires S A) : throws r -> exists m w, r = IThrow m w.
Proof. destruct r; cbn; try contradiction. eauto. Qed.
Theorem parse_differs_refuted (w : world) :
  ((exists w', driver_read S "in" (Some "4 4ext"%string) w = IOk (4, 4, "ext"%string, []) w') /\
   (exists m w', cli_read S "in" (Some "4 4ext"%string) w = IThrow m w')) /\
  ((exists w', driver_read S "in" (Some "4 4 ext 0 1.5"%string) w = IOk (4, 4, "ext"%string, [0; 1]) w') /\
   (exists w', cli_read S "in" (Some "4 4 ext 0 1.5"%string) w = IOk (4, 4, "ext"%string, [0]) w')) /\
  ((exists w', driver_read S "in" (Some "4 1_0 ext"%string) w = IOk (4, 1, "_0"%string, []) w') /\
   (exists w', cli_read S "in" (Some "4 1_0 ext"%string) w = IOk (4, 10, "ext"%string, []) w')) /\
  ((exists y, driver_read S "in" (Some "mboz 4"%string) w = IUB y) /\
   (exists m w', cli_read S "in" (Some "mboz 4"%string) w = IThrow m w')) /\
  ((exists y, driver_read S "in" (Some "99999999999 4 ext"%string) w = IUB y) /\
   (exists w', cli_read S "in" (Some "99999999999 4 ext"%string) w = IOk (99999999999, 4, "ext"%string, []) w')) /\
  ((exists w', driver_read S "in" (Some "4 4 ext 5000000000 1"%string) w = IOk (4, 4, "ext"%string, []) w') /\
   (exists w', cli_read S "in" (Some "4 4 ext 5000000000 1"%string) w = IOk (4, 4, "ext"%string, [5000000000; 1]) w')).
Proof.
  splits; try (apply gives_ex; reflexivity); try (apply throws_ex; exact Logic.I); try (apply ubz_ex; exact Logic.I).
Qed.
(** Even where the two agree, they print different things. *)
Theorem console_differs_refuted (w : world) : control dtext 8 2 "x" [2; 0] /\
  exists wa wb, driver_read S "in" (Some dtext) w = IOk (8, 2, "x"%string, [2; 0]) wa /\ cli_read S "in" (Some dtext) w = IOk (8, 2, "x"%string, [2; 0]) wb /\
    wEv wa <> wEv wb.
Proof.
  split; [apply dtext_control|]. destruct (cli_reads S dtext 8 2 "x" [2; 0] "in" w dtext_control) as (e & E & He).
  eexists. eexists. split; [apply driver_reads; exact dtext_control|]. split; [exact E|].
  cbn [addEv wEv]. intros K. apply app_inv_head in K. apply app_inv_head in K. apply app_inv_head in K. destruct He as [->| ->]; discriminate.
Qed.
Theorem malformed_ub_refuted version (w : world) : exists a text why, driver S version [a] (Some text) w = IUB why /\
  exists m w', cli S Some version version [a] (Some text) w = IThrow m w'.
Proof.
  exists "in"%string, "mboz 4"%string. destruct (ubz_ex (driver S version ["in"%string] (Some "mboz 4"%string) w)) as (y & E); [exact Logic.I|].
  exists y. split; [exact E|]. apply throws_ex. exact Logic.I.
Qed.
Theorem cli_bad_surface text mb nb ext l conv : control text mb nb ext l ->
  (forall l, Forall (fun z => INT_MIN <= z <= INT_MAX) l -> conv l = Some l) ->
  forall version pyversion (w : world) f asp i d a, wFS w (wout_name ext) = Some (Whole f) -> good_wout f asp i d -> d_flux S d = false -> verb i = 1 ->
  open_ok w -> lucky S w -> Exists (fun z => ~ 0 <= z < d_ns S d - 1) l ->
  exists why, cli S conv version pyversion [a] (Some text) w = IUB why.
Proof.
  intros C Hc version pyversion w f asp i d a Hf G Fx Hv Op L Bad.
  destruct (driver_bad_surface text mb nb ext l C version w f asp i d a Hf G Fx Hv Op L Bad) as (y & E).
  pose proof (interchangeable text mb nb ext l conv C Hc version pyversion a a w) as I. rewrite E in I. unfold same_result in I.
  destruct (cli _ _ _ _ _ _ _); try contradiction. eauto.
Qed.
(** A control file asking for a surface that does not exist *)
Definition btext : string := "8 2 x 9"%string.
Lemma btext_control : control btext 8 2 "x" [9].
Proof.
  exists "8"%string, "2"%string, ["9"]%string. splits.
  - refine (tk_more "" "8" _ _ _ _ _ _); [exact Logic.I|sol|right; eexists; eexists; split; [reflexivity|whi]|].
    refine (tk_more " " "2" _ _ _ _ _ _); [split; [whi|exact Logic.I]|sol|right; eexists; eexists; split; [reflexivity|whi]|].
    refine (tk_more " " "x" _ _ _ _ _ _); [split; [whi|exact Logic.I]|sol|right; eexists; eexists; split; [reflexivity|whi]|].
    refine (tk_more " " "9" "" _ _ _ _ _); [split; [whi|exact Logic.I]|sol|left; reflexivity|]. constructor. exact Logic.I.
  - split; [left; apply (digit1 8); lia|unfold INT_MIN, INT_MAX; lia].
  - split; [left; apply (digit1 2); lia|unfold INT_MIN, INT_MAX; lia].
  - constructor; [split; [left; apply (digit1 9); lia|unfold INT_MIN, INT_MAX; lia]|constructor].
Qed.
Lemma bad_case asy : control btext 8 2 "x" [9] /\ wFS (dworld asy []) (wout_name "x") = Some (Whole (wex S asy false)) /\
  good_wout (wex S asy false) (fofZ S 3) (vex S asy 1 2 two_surfs) (vexd S false 4) /\ open_ok (dworld asy []) /\ lucky S (dworld asy []) /\
  Exists (fun z => ~ 0 <= z < d_ns S (vexd S false 4) - 1) [9].
Proof.
  split; [exact btext_control|]. split; [reflexivity|]. split; [apply wex_good|]. split; [apply desk_open|]. split; [reflexivity|].
  apply Exists_cons_hd. intros (_ & X). cbn [d_ns vexd] in X. lia.
Qed.
Lemma case46 asy q : control dtext 8 2 "x" [2; 0] /\ sorted_as [2; 0] [0; 2] /\
  ready "0.0.8" (dworld asy q) (wex S asy false) "x" 8 2 [0; 2] (fofZ S 3) (vex S asy 1 2 two_surfs) (vexd S false 4) /\
  wcomplete S (wex S asy false) (vex S asy 1 2 two_surfs) (vexd S false 4).
Proof.
  splits; auto using dtext_control, dtext_sorted, d_complete. apply d_ready; cbn; try lia. repeat constructor; lia.
Qed.
Lemma tiny_wf : wf_obj (obj_of (tiny (S := S) 2 1 1 1 0 1 1 0)).
Proof. apply obj_of_wf; cbn; lia. Qed.
End Thms.
Lemma no_number_case : forall s p r z, ""%string = (s ++ p ++ r)%string -> blank s -> ~ number p z.
Proof. intros [|c s] p r z E _ N; [|discriminate]. destruct (number_head p z N) as (c & t & -> & _). discriminate. Qed.

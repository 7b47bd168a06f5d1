(** C84: exactly which objects write_boozmn writes. *)
From Coq Require Import ZArith List String Bool Lia.
From Verif Require Import Scalar Prog Model Wp Func FuncExt Spec Vmec Nc NcModel NcSpec NcVoc NcWrite NcThms NcThms2 NcThms3 NcThms4 Py Frame FrameThms ReadAll Stored Written WrittenThm NoSurf.
Import ListNotations.
Local Open Scope Z_scope.
Local Open Scope io_scope.

(** ** Vocabulary *)
Section Voc.
Context {S : Scalar}.
(** The first [n] elements of [a] exist and have been set. *)
Definition set_to {T} (a : array T) (n : Z) : Prop := forall j, 0 <= j < n -> exists v, znth (adata a) j = Some (Some v).
(** Everything write_boozmn reads of an object with [ns_in] = [ns] and [mnboz] = [mn] is there. *)
Definition fit (o : obj S) (ns mn : Z) : Prop := exists nb asy,
  oI o I_ns_b = Some nb /\ oB o B_asym = Some asy /\ asize (oN o N_compute_surfs) = nb /\
  (forall j, 0 <= j < nb -> exists z, znth (adata (oN o N_compute_surfs)) j = Some (Some z) /\ z + 2 <= INT_MAX /\ INT_MIN <= z + 2) /\
  (forall k, In k [N_xm_b; N_xn_b] -> mn <= asize (oN o k)) /\
  (forall k, In k [A_iota; A_Boozer_I_all; A_Boozer_G_all] -> set_to (oA o k) ns) /\
  (asize (oA o A_phip) <> 0 -> forall k, In k [A_phip; A_chi; A_pres; A_phi] -> ns + 1 <= asize (oA o k)) /\
  (forall k, In k [A_bmnc_b; A_rmnc_b; A_zmns_b; A_numns_b; A_gmnc_b] -> nb * mn <= asize (oA o k)) /\
  set_to (oA o A_numns_b) (asize (oA o A_numns_b)) /\
  (asy = true -> (forall k, In k [A_bmns_b; A_rmns_b; A_zmnc_b; A_numnc_b; A_gmns_b] -> nb * mn <= asize (oA o k)) /\
     set_to (oA o A_numnc_b) (asize (oA o A_numnc_b))).
End Voc.

Section Proof.
Context {S : Scalar}.
Notation obj := (obj S).
Notation world := (world S).
Notation io := (io S).
Notation F := (F S).
Notation arr := (arr S).
Notation prog := (prog S).
Notation st := Written.st.

Definition out {A} (m : io A) (w : world) (P : Prop) : Prop := match m w with IOk _ _ => P | IUB _ => ~ P | _ => False end.
Definition goes {A} (m : io A) (w : world) (P : Prop) : Prop :=
  (P /\ exists a w', m w = IOk a w' /\ wQ w' = []) \/ (~ P /\ exists why, m w = IUB why).
Definition runs {A} (p : prog A) (o : obj) (P : Prop) : Prop :=
  (P /\ exists a o' ev, run p o = ROk a o' ev) \/ (~ P /\ exists why, run p o = RUB why).

Lemma out_then {A B} (m : io A) (k : A -> io B) w P Q (R : Prop) : ok m w Q -> goes m w P -> (~ P -> ~ R) ->
  (forall a w', P -> Q a w' -> wQ w' = [] -> out (k a) w' R) -> out (ibind m k) w R.
Proof.
  unfold ok, out, ibind. intros H [(p & a & w' & E & q)|(n & why & E)] G K; rewrite E in *; [|auto]. apply K; auto.
Qed.
Lemma goes_then {A B} (m : io A) (k : A -> io B) w P Q (R : Prop) : ok m w Q -> goes m w P -> (R -> P) ->
  (forall a w', P -> Q a w' -> wQ w' = [] -> goes (k a) w' R) -> goes (ibind m k) w R.
Proof.
  unfold ok, goes at 2. intros H [(p & a & w' & E & q)|(n & why & E)] G K.
  - unfold goes, ibind. rewrite E in *. apply K; auto.
  - right. split; [auto|]. exists why. unfold ibind. now rewrite E.
Qed.
Lemma goes_ret {A} (a : A) w : wQ w = [] -> goes (iret a) w True.
Proof. left. split; [exact Logic.I|]. exists a, w. auto. Qed.
Lemma goes_weaken {A} (m : io A) w P R : goes m w P -> (P <-> R) -> goes m w R.
Proof. unfold goes. tauto. Qed.
Lemma goes_lift {A} (p : prog A) w P : wQ w = [] -> runs p (wO w) P -> goes (lift p) w P.
Proof.
  intros q [(H & a & o' & ev & E)|(H & why & E)]; unfold goes, lift; rewrite E; [left|right]; split; auto; [|eauto]. eexists _, _. split; [reflexivity|exact q].
Qed.
Lemma runs_bind {A B} (p : prog A) (k : A -> prog B) o P (R : Prop) : runs p o P -> (R -> P) ->
  (forall a o' ev, P -> run p o = ROk a o' ev -> runs (k a) o' R) -> runs (bind p k) o R.
Proof.
  intros [(H & a & o' & ev & E)|(H & why & E)] G K; unfold runs; rewrite bind_run, E.
  - destruct (K a o' ev H E) as [(R1 & b & o2 & ev2 & E2)|(R1 & why & E2)]; rewrite E2; [left|right]; (split; [auto|first [eexists _, _, _; reflexivity | eexists; reflexivity]]).
  - right. split; [auto|]. eauto.
Qed.
Lemma runs_ret {A} (a : A) o : runs (Ret a) o True.
Proof. left. split; [exact Logic.I|]. cbn. eauto. Qed.
Lemma runs_weaken {A} (p : prog A) o P R : runs p o P -> (P <-> R) -> runs p o R.
Proof. unfold runs. tauto. Qed.
Lemma runs_for {St} (body : Z -> St -> prog St) (Inv : Z -> St -> Prop) (P : Z -> Prop) (o : obj) hi :
  (forall i s, i < hi -> Inv i s -> (P i /\ exists s' ev, run (body i s) o = ROk s' o ev /\ Inv (i + 1) s') \/ (~ P i /\ exists why, run (body i s) o = RUB why)) ->
  forall n lo s, lo + Z.of_nat n <= hi -> Inv lo s -> runs (for_from n lo s body) o (forall j, lo <= j < lo + Z.of_nat n -> P j).
Proof.
  intros Hb n. induction n as [|n IH]; intros lo s Hh Hi.
  - left. split; [intros; lia|]. cbn. eauto.
  - cbn [for_from]. destruct (Hb lo s ltac:(lia) Hi) as [(p & s' & ev & E & H)|(p & why & E)].
    + destruct (IH (lo + 1) s' ltac:(lia) H) as [(q & a & o' & ev' & E')|(q & why & E')]; unfold runs; rewrite bind_run, E, E'; [left|right]; (split; [|first [eexists _, _, _; reflexivity | eexists; reflexivity]]).
      * intros j Hj. destruct (Z.eq_dec j lo) as [->|]; [exact p|]. apply q. lia.
      * intros G. apply q. intros j Hj. apply G. lia.
    + right. rewrite bind_run, E. split; [|eauto]. intros G. apply p, G. lia.
Qed.

Section Go.
Variables (x : string) (h : Z).
Lemma goes_define {A} (f : ncfile S -> code (A * ncfile S)) o ds vs w : st x h o ds vs w -> wQ w = [] ->
  (forall g, nf_dims g = ds -> map sg (nf_vars g) = vs -> exists a g', f g = Good (a, g')) -> goes (c <- define h f ;; wchk S c) w True.
Proof.
  intros (O & g & H & D & V) q G. left. split; [exact Logic.I|]. unfold ibind, define, Nc.call. rewrite q, H. destruct (G g D V) as (a & g' & E). rewrite E.
  eexists _, _. split; [reflexivity|exact q].
Qed.
Lemma goes_wdim regs y n o ds vs w : st x h o ds vs w -> wQ w = [] -> 1 <= n <= 2147483644 -> lookup ds y = None -> goes (wdim S (mkWr h regs) y n) w True.
Proof.
  intros Hs q Hn L. unfold wdim, nc_def_dim. cbn [wr_id]. eapply goes_define; [exact Hs|exact q|]. intros g D V. rewrite D, L.
  destruct (Z.ltb_spec n 0); [lia|]. destruct (Z.ltb_spec 2147483644 n); [lia|]. destruct (Z.eqb_spec n 0); [lia|]. cbn. eauto.
Qed.
Lemma goes_att y a t o ds vs w : st x h o ds vs w -> wQ w = [] -> goes (c <- nc_put_att_text h y a t ;; wchk S c) w True.
Proof. intros Hs q. eapply goes_define; [exact Hs|exact q|]. eauto. Qed.
Lemma goes_atts regs y att units o ds vs w : st x h o ds vs w -> wQ w = [] -> goes (add_attribute S (mkWr h regs) y att units) w True.
Proof.
  intros Hs q. unfold add_attribute. cbn [wr_id]. apply goes_then with (P := True) (Q := fun _ w' => st x h o ds vs w').
  - destruct (0 <? String.length att)%nat; [eapply ok_att; exact Hs|now apply ok_ret].
  - destruct (0 <? String.length att)%nat; [eapply goes_att; [exact Hs|exact q]|now apply goes_ret].
  - auto.
  - intros ? w1 _ H1 q1. destruct (0 <? String.length units)%nat; [eapply goes_att; [exact H1|exact q1]|now apply goes_ret].
Qed.
Definition dims_ok (ds : list (string * Z)) (dd : list string) : Prop :=
  forallb (fun d => match lookup ds d with Some _ => true | None => false end) dd = true /\
  existsb (fun d => match lookup ds d with Some 0 => true | _ => false end) (tl dd) = false.
Lemma chk_assoc {A B} (m : io (code A)) (k : A -> io B) w : ibind m (fun c => ibind (wchk S c) k) w = ibind (c <- m ;; wchk S c) k w.
Proof. unfold ibind. destruct (m w) as [c w'| | |]; auto. Qed.
Lemma goes_ext {A} (m m' : io A) w P : m w = m' w -> goes m' w P -> goes m w P.
Proof. unfold goes. now intros ->. Qed.
Lemma ok_ext {A} (m m' : io A) w Q : m w = m' w -> ok m' w Q -> ok m w Q.
Proof. unfold ok. now intros ->. Qed.
Lemma goes_def_var {B} y dd ty o ds vs w (k : unit -> io B) R : st x h o ds vs w -> wQ w = [] -> lookup vs y = None -> dims_ok ds dd ->
  (forall w', st x h o ds (vs ++ [(y, dd)]) w' -> wQ w' = [] -> goes (k tt) w' R) ->
  goes (ibind (nc_def_var h y dd ty) (fun c => ibind (wchk S c) k)) w R.
Proof.
  intros Hs q L (D1 & D2) K. eapply goes_ext; [apply chk_assoc|].
  apply goes_then with (P := True) (Q := fun _ w' => st x h o ds (vs ++ [(y, dd)]) w').
  - eapply ok_chk; [eapply ok_def_var; exact Hs|]. intros [] w' H. exact H.
  - unfold nc_def_var. eapply goes_define; [exact Hs|exact q|]. intros g D V. rewrite (find_sg g y) by (rewrite V; exact L). rewrite D, D1, D2. eauto.
  - auto.
  - intros [] w' _ H q'. auto.
Qed.
Definition fine (p : ptr) : Prop := match p with MemN _ n | MemA _ n | LocN _ n | LocA _ n => n <> 0 | _ => True end.
Lemma goes_put regs dd y ty p att units o ds vs w : st x h o ds vs w -> wQ w = [] -> lookup vs y = None -> dims_ok ds dd ->
  goes (put S (mkWr h regs) dd y ty p att units) w (fine p).
Proof.
  intros Hs q L D. unfold put. cbn [wr_id wr_regs]. eapply goes_def_var; [exact Hs|exact q|exact L|exact D|]. intros w1 H1 q1.
  apply goes_then with (P := fine p) (Q := fun _ w' => st x h o ds (vs ++ [(y, dd)]) w').
  - destruct p as [| |? n|? n| | |? n|? n|]; try (now apply ok_ret); destruct n; try (now apply ok_ret); exact Logic.I.
  - unfold goes. destruct p as [| |? n|? n| | |? n|? n|]; cbn [fine]; try destruct n; cbn; first [left; split; [first [exact Logic.I|discriminate]|]; eexists _, _; split; [reflexivity|exact q1] | right; split; [intros N; now apply N|]; eexists; reflexivity].
  - auto.
  - intros ? w2 Hp H2 q2. apply goes_weaken with (P := True); [|tauto]. eapply goes_then; [eapply ok_atts; exact H2|eapply goes_atts; [exact H2|exact q2]|auto|].
    intros ? w3 _ H3 q3. now apply goes_ret.
Qed.
Lemma goes_put_string regs y nm s att o ds vs w : st x h o ds vs w -> wQ w = [] -> lookup vs y = None -> lookup ds (dim_str (String.length s)) = None ->
  1 <= Z.of_nat (String.length s) <= 2147483644 -> goes (put_string S (mkWr h regs) y nm s att) w True.
Proof.
  intros Hs q L D N. unfold put_string. cbn [wr_id wr_regs]. set (len := Z.of_nat _) in *. set (dm := dim_str _) in *. clearbody dm len.
  apply goes_then with (P := True) (Q := fun c w' => match c with Err _ => st x h o ds vs w' | Good _ => False end).
  { apply ok_call.
    - intros w' E1 E2. pose proof (st_same _ _ _ _ _ _ _ Hs E1 E2) as H'. destruct H' as (O & g & H & D' & V).
      unfold contents. rewrite H, D', D. split; [exact O|]. exists g. auto.
    - intros m w' E1 E2. now apply (st_same _ _ _ _ _ w). }
  { left. split; [exact Logic.I|]. unfold nc_inq_dimid, Nc.call. rewrite q. destruct Hs as (O & g & H & D' & V). unfold contents. rewrite H, D', D. eexists _, _. split; [reflexivity|exact q]. }
  { auto. }
  intros [m|[]] w1 _ H1 q1; [|contradiction].
  eapply goes_then; [eapply (ok_wdim x h regs dm len); exact H1|eapply (goes_wdim regs dm len); eassumption|auto|]. cbv beta. intros ? w2 _ (H2 & _) q2.
  eapply goes_def_var; [exact H2|exact q2|exact L| |].
  { split; [|reflexivity]. cbn [forallb]. rewrite lookup_app, D. unfold lookup. cbn [find fst]. now rewrite String.eqb_refl. }
  intros w3 H3 q3. eapply goes_then; [eapply ok_atts; exact H3|eapply goes_atts; eassumption|auto|]. intros ? w4 _ H4 q4. now apply goes_ret.
Qed.
Lemma goes_put_ints regs dd y f att units o ds vs w : st x h o ds vs w -> wQ w = [] -> lookup vs y = None -> dims_ok ds dd ->
  goes (put_ints S (mkWr h regs) dd y f att units) w (asize (oN o f) <> 0).
Proof. intros Hs q L D. unfold put_ints. eapply goes_ext with (m' := put S (mkWr h regs) dd y (INT S) (MemN f (asize (oN o f))) att units); [unfold ibind, theobj; now rewrite (proj1 Hs)|]. apply (goes_put regs dd y (INT S) (MemN f (asize (oN o f))) att units o ds vs w); auto. Qed.
Lemma goes_put_arr regs dd y f att units o ds vs w : st x h o ds vs w -> wQ w = [] -> lookup vs y = None -> dims_ok ds dd ->
  goes (put_arr S (mkWr h regs) dd y f att units) w (asize (oA o f) <> 0).
Proof. intros Hs q L D. unfold put_arr. eapply goes_ext with (m' := put S (mkWr h regs) dd y (DBL S) (MemA f (asize (oA o f))) att units); [unfold ibind, theobj; now rewrite (proj1 Hs)|]. apply (goes_put regs dd y (DBL S) (MemA f (asize (oA o f))) att units o ds vs w); auto. Qed.
Lemma inside_size {T} (a : array T) : wf_arr a -> (inside 0 0 (arows a) (acols a) = true <-> asize a <> 0).
Proof.
  intros (W1 & W2 & W3). unfold inside, asize. split.
  - intros H. apply andb_true_iff in H. destruct H as (H & H3). repeat (apply andb_true_iff in H; destruct H as (H & ?)). nia.
  - intros H. assert (0 < arows a /\ 0 < acols a) as (H1 & H2) by nia. apply Z.ltb_lt in H1, H2. rewrite H1, H2. reflexivity.
Qed.
Lemma goes_inside {A T} (a : array T) why (m : io A) w P : wf_arr a -> (asize a <> 0 -> goes m w (asize a <> 0 /\ P)) ->
  goes (ibind (if inside 0 0 (arows a) (acols a) then iret tt else iub why) (fun _ => m)) w (asize a <> 0 /\ P).
Proof.
  intros W K. pose proof (inside_size a W) as I. destruct (inside _ _ _ _).
  - apply K, I. reflexivity.
  - right. split; [intros (N & _); apply I in N; discriminate N|]. eexists. reflexivity.
Qed.
Definition mdims : list string := ["pack_rad"; "mn_modes"]%string.
Lemma goes_put_mat regs y f att units o ds vs w : wf_arr (oA o f) -> st x h o ds vs w -> wQ w = [] -> lookup vs y = None -> dims_ok ds mdims ->
  goes (put_mat S (mkWr h regs) y f att units) w (asize (oA o f) <> 0).
Proof.
  intros W Hs q L D. unfold put_mat. eapply goes_ext with (m' := ibind (if inside 0 0 (arows (oA o f)) (acols (oA o f)) then iret tt else iub "element (0,0) of an empty matrix")
    (fun _ => put S (mkWr h regs) mdims y (DBL S) (MemA f (asize (oA o f))) att units)); [unfold ibind, theobj; now rewrite (proj1 Hs)|].
  apply goes_weaken with (P := asize (oA o f) <> 0 /\ True); [|tauto]. apply goes_inside; [exact W|]. intros N.
  apply goes_weaken with (P := fine (MemA f (asize (oA o f)))); [|cbn; tauto]. eapply goes_put; eassumption.
Qed.
Lemma goes_put_local_mat regs y (a : arr) att units o ds vs w : wf_arr a -> st x h o ds vs w -> wQ w = [] -> lookup vs y = None -> dims_ok ds mdims ->
  goes (put_local_mat S (mkWr h regs) y a att units) w (asize a <> 0).
Proof.
  intros W Hs q L D. unfold put_local_mat. apply goes_weaken with (P := asize a <> 0 /\ True); [|tauto]. apply goes_inside; [exact W|]. intros N.
  apply goes_weaken with (P := fine (LocA y (asize a))); [|cbn; tauto]. eapply (goes_put regs mdims); eassumption.
Qed.

(** Steps on the object *)
Lemma goes_geti k o ds vs w : st x h o ds vs w -> wQ w = [] -> goes (lift (geti k)) w (oI o k <> None).
Proof. intros Hs q. apply goes_lift; [exact q|]. rewrite (proj1 Hs). unfold runs. cbn. destruct (oI o k); [left|right]; split; try congruence; eauto. Qed.
Lemma goes_getb k o ds vs w : st x h o ds vs w -> wQ w = [] -> goes (lift (getb k)) w (oB o k <> None).
Proof. intros Hs q. apply goes_lift; [exact q|]. rewrite (proj1 Hs). unfold runs. cbn. destruct (oB o k); [left|right]; split; try congruence; eauto. Qed.
Lemma runs_int z (o : obj) : runs (int_ z) o (INT_MIN <= z <= INT_MAX).
Proof.
  unfold runs, int_, in_int. destruct (Z.leb_spec INT_MIN z); destruct (Z.leb_spec z INT_MAX); cbn; [left|right|right|right]; split; try lia; eauto.
Qed.
Lemma goes_iadd a b o ds vs w : st x h o ds vs w -> wQ w = [] -> goes (lift (iadd a b)) w (INT_MIN <= a + b <= INT_MAX).
Proof. intros Hs q. apply goes_lift; [exact q|]. apply runs_int. Qed.
Lemma goes_sizen k o ds vs w : st x h o ds vs w -> wQ w = [] -> goes (lift (sizen k)) w True.
Proof. intros Hs q. apply goes_lift; [exact q|]. left. cbn. eauto. Qed.
Lemma goes_size k o ds vs w : st x h o ds vs w -> wQ w = [] -> goes (lift (bind (getarr k) (fun a => Ret (asize a)))) w True.
Proof. intros Hs q. apply goes_lift; [exact q|]. left. cbn. eauto. Qed.
Lemma runs_resize {T} n (o : obj) : 0 <= n -> runs (resize (@empty_vec T) n 1) o True.
Proof. intros N. left. split; [exact Logic.I|]. unfold resize. destruct (Z.ltb_spec n 0); [lia|]. cbn [orb Z.ltb Z.compare].
  destruct (n * 1 =? asize (@empty_vec T)); eexists _, _, _; reflexivity. Qed.
Lemma goes_new n o ds vs w : st x h o ds vs w -> wQ w = [] -> 0 <= n -> goes (new_vec S n) w True.
Proof. intros Hs q N. apply goes_lift; [exact q|]. now apply runs_resize. Qed.
Lemma goes_zero n o ds vs w : st x h o ds vs w -> wQ w = [] -> 0 <= n -> goes (zero_vec S n) w True.
Proof. intros Hs q N. apply goes_lift; [exact q|]. left. split; [exact Logic.I|]. unfold zeros. destruct (Z.ltb_spec n 0); [lia|]. cbn [orb Z.ltb Z.compare]. eexists _, _, _; reflexivity. Qed.
Lemma goes_phip (o : obj) ds vs w : wf_arr (oA o A_phip) -> asize (oA o A_phip) <> 0 -> st x h o ds vs w -> wQ w = [] -> goes (lift (putv A_phip 0 (fofZ S 0))) w True.
Proof.
  intros (W1 & W2 & W3) N Hs q. apply goes_lift; [exact q|]. left. split; [exact Logic.I|]. rewrite (proj1 Hs). cbn.
  assert (H : exists c, znth (adata (oA o A_phip)) 0 = Some c) by (apply znth_Some; fold (asize (oA o A_phip)) in W3; unfold asize in *; nia).
  destruct H as (c & ->). cbn. eauto.
Qed.
Lemma goes_prepend f n o ds vs w : st x h o ds vs w -> wQ w = [] -> 0 <= n < INT_MAX -> goes (prepend_zero S f n) w (set_to (oA o f) n).
Proof.
  intros Hs q N. unfold prepend_zero. eapply goes_then; [eapply ok_iadd; exact Hs|eapply goes_iadd; [exact Hs|exact q]|unfold INT_MIN; lia|]. cbv beta. intros m w1 _ (-> & H1) q1.
  apply goes_then with (P := True) (Q := fun (a : arr) w' => (0 <= n + 1 /\ arows a = n + 1 /\ acols a = 1 /\ adata a = zrepeat None (n + 1)) /\ st x h o ds vs w').
  { apply ok_pure; [exact H1|]. intros a o' ev E. apply (new_ok a) in E. tauto. }
  { eapply goes_new; [exact H1|exact q1|lia]. }
  { auto. }
  intros a w2 _ ((_ & A1 & A2 & A3) & H2) q2. apply goes_lift; [exact q2|]. rewrite (proj1 H2).
  assert (La : Z.of_nat (List.length (adata a)) = n + 1) by (rewrite A3; apply zrepeat_len; lia).
  assert (Hc : exists c, znth (adata a) 0 = Some c) by (apply znth_Some; lia). destruct Hc as (c & Hc).
  eapply runs_bind with (P := True); [left; split; [exact Logic.I|]; unfold vset; rewrite Hc; eexists _, _, _; reflexivity|auto|].
  intros a1 o1 ev1 _ E1. unfold vset in E1. rewrite Hc in E1. injection E1 as <- <- _.
  set (a0 := aput a 0 (fofZ S 0)).
  assert (G : runs (for_ 0 n a0 (fun j a => bind (getv f j) (fun x => vset a (j + 1) x))) o (set_to (oA o f) n)).
  { unfold for_. eapply runs_weaken; [apply runs_for with (hi := n) (P := fun j => exists v, znth (adata (oA o f)) j = Some (Some v)) (Inv := fun i (b : arr) => Z.of_nat (List.length (adata b)) = n + 1 /\ 0 <= i)|].
    - intros i b Hn (B1 & B2). rewrite bind_run. cbn [getv run]. destruct (znth (adata (oA o f)) i) as [[v|]|] eqn:Ev.
      + unfold vset. assert (H : exists c, znth (adata b) (i + 1) = Some c) by (apply znth_Some; lia). destruct H as (c1 & ->).
        left. split; [eauto|]. cbn. eexists _, _. split; [reflexivity|]. cbn. rewrite zset_length. split; [exact B1|lia].
      + right. split; [intros (v & E); discriminate E|]. cbn. eauto.
      + right. split; [intros (v & E); discriminate E|]. cbn. eauto.
    - lia.
    - cbn. rewrite zset_length. lia.
    - unfold set_to. split; intros G j Hj; apply G; lia. }
  exact G.
Qed.
Lemma goes_jlist n o ds vs w : st x h o ds vs w -> wQ w = [] ->
  goes (lift (bind (resize empty_vec n 1) (fun a =>
    for_ 0 n a (fun j a => bind (getn N_compute_surfs j) (fun x => bind (iadd x 2) (fun y => vset a j y)))))) w
    (0 <= n /\ forall j, 0 <= j < n -> exists z, znth (adata (oN o N_compute_surfs)) j = Some (Some z) /\ z + 2 <= INT_MAX /\ INT_MIN <= z + 2).
Proof.
  intros Hs q. apply goes_lift; [exact q|]. rewrite (proj1 Hs). destruct (Z_lt_le_dec n 0) as [N|N].
  { right. split; [lia|]. rewrite bind_run. unfold resize. destruct (Z.ltb_spec n 0); [|lia]. cbn. eauto. }
  eapply runs_bind; [apply runs_resize; exact N|auto|]. intros a o' ev _ E. apply new_ok in E. destruct E as (-> & _ & A1 & A2 & A3).
  assert (La : Z.of_nat (List.length (adata a)) = n) by (rewrite A3; now apply zrepeat_len).
  unfold for_. eapply runs_weaken; [apply runs_for with (hi := n) (P := fun j => exists z, znth (adata (oN o N_compute_surfs)) j = Some (Some z) /\ z + 2 <= INT_MAX /\ INT_MIN <= z + 2)
    (Inv := fun i (b : narr) => Z.of_nat (List.length (adata b)) = n /\ 0 <= i)|].
  - intros i b Hn (B1 & B2). rewrite bind_run. cbn [getn run]. destruct (znth (adata (oN o N_compute_surfs)) i) as [[v|]|] eqn:Ev.
    + cbn [run]. rewrite bind_run. unfold iadd. destruct (runs_int (v + 2) o) as [(G & z & o2 & ev2 & E)|(G & why & E)].
      * rewrite E. assert (z = v + 2 /\ o2 = o) as (-> & ->) by (unfold int_ in E; destruct (in_int _); [now injection E|discriminate E]).
        unfold vset. assert (H : exists c, znth (adata b) i = Some c) by (apply znth_Some; lia). destruct H as (c1 & ->).
        left. split; [exists v; split; [reflexivity|lia]|]. cbn. eexists _, _. split; [reflexivity|]. cbn. rewrite zset_length. split; [exact B1|lia].
      * rewrite E. right. split; [|eauto]. intros (z & E2 & H). injection E2 as <-. lia.
    + right. split; [intros (v & E & _); discriminate E|]. cbn. eauto.
    + right. split; [intros (v & E & _); discriminate E|]. cbn. eauto.
  - lia.
  - lia.
  - split; [intros G; split; [exact N|]; intros j Hj; apply G; lia|]. intros (_ & G) j Hj. apply G. lia.
Qed.
Lemma goes_neg f o ds vs w : wf_arr (oA o f) -> st x h o ds vs w -> wQ w = [] ->
  goes (lift (bind (getarr f) (neg_arr S))) w (set_to (oA o f) (asize (oA o f))).
Proof.
  intros (W1 & W2 & W3) Hs q. apply goes_lift; [exact q|]. rewrite (proj1 Hs). set (a := oA o f) in *. fold (asize a) in W3.
  assert (N : 0 <= asize a) by lia.
  assert (G : runs (neg_arr S a) o (set_to a (asize a))).
  { unfold neg_arr. eapply runs_bind; [|intros R; exact R|intros; apply runs_weaken with (P := True); [apply runs_ret|tauto]].
    unfold for_. eapply runs_weaken; [apply runs_for with (hi := asize a) (P := fun j => exists v, znth (adata a) j = Some (Some v)) (Inv := fun i (b : arr) => Z.of_nat (List.length (adata b)) = asize a /\ 0 <= i)|].
    - intros i b Hn (B1 & B2). rewrite bind_run. unfold vget. destruct (znth (adata a) i) as [[v|]|] eqn:Ev.
      + cbn [run]. unfold vset. assert (H : exists c, znth (adata b) i = Some c) by (apply znth_Some; lia). destruct H as (c1 & ->).
        left. split; [eauto|]. cbn. eexists _, _. split; [reflexivity|]. cbn. rewrite zset_length. split; [exact B1|lia].
      + right. split; [intros (v & E); discriminate E|]. cbn. eauto.
      + right. split; [intros (v & E); discriminate E|]. cbn. eauto.
    - lia.
    - cbn [adata]. split; [now apply zrepeat_len|lia].
    - unfold set_to. split; intros G j Hj; apply G; lia. }
  destruct G as [(G & b & o' & ev & E)|(G & why & E)]; unfold runs; rewrite bind_run; cbn [getarr run]; fold a; rewrite E; [left|right]; (split; [auto|first [eexists _, _, _; reflexivity | eexists; reflexivity]]).
Qed.
Lemma neg_wf f o ds vs w : wf_arr (oA o f) -> st x h o ds vs w ->
  ok (lift (bind (getarr f) (neg_arr S))) w (fun b w' => (asize b = asize (oA o f) /\ wf_arr b) /\ st x h o ds vs w').
Proof.
  intros Hw Hs. apply ok_pure; [exact Hs|]. intros b o' ev E. rewrite bind_run in E. cbn [getarr run] in E.
  destruct (run (neg_arr S (oA o f)) o) as [b' o1 ev1| |] eqn:R; try discriminate E. cbn in E. injection E as -> -> _.
  destruct Hw as (W1 & W2 & W3).
  apply neg_ok with (r := arows (oA o f)) (c := acols (oA o f)) in R; [|repeat split; exact W3]. destruct R as (-> & (B1 & B2 & B3) & B4).
  split; [reflexivity|]. split; [unfold asize; congruence|]. unfold wf_arr. rewrite B1, B2, B3. auto.
Qed.

(** The end of a writing *)
Definition full env (o : obj) ds (vs : list (string * list string)) (regs : list (string * ptr)) : Prop :=
  forall y p, In (y, p) regs -> exists dd v w0, lookup vs y = Some dd /\ wO w0 = o /\ deref S env p w0 (nsize ds dd) = Some v.
Lemma goes_put_all env o ds vs : forall l w, (forall y, In y (map fst l) -> lookup vs y <> None) -> st x h o ds vs w -> wQ w = [] ->
  goes (put_all S h env l) w (full env o ds vs l) /\ ok (put_all S h env l) w (fun _ w' => st x h o ds vs w').
Proof.
  induction l as [|(y, p) l IH]; intros w Hv Hs q.
  - split; [|now apply ok_ret]. left. split; [intros y p []|]. eexists _, _. split; [reflexivity|exact q].
  - cbn [put_all]. assert (Hv' : forall y, In y (map fst l) -> lookup vs y <> None) by (intros z Hz; apply Hv; now right).
    destruct (lookup vs y) as [dd|] eqn:L; [|exfalso; apply (Hv y); [now left|exact L]].
    assert (Hp : (exists v, deref S env p w (nsize ds dd) = Some v) /\ (exists w', nc_put_var h y (deref S env p) w = IOk (Good tt) w' /\ st x h o ds vs w' /\ wQ w' = []) \/
                 deref S env p w (nsize ds dd) = None /\ exists why, nc_put_var h y (deref S env p) w = IUB why).
    { destruct Hs as (O & g & H & D & V). unfold nc_put_var, Nc.call. rewrite q, H. destruct (find_var g y) as [u|] eqn:Fu.
      - apply lookup_sg in Fu. rewrite V, L in Fu. injection Fu as ->. unfold vlen. rewrite D. change (fold_right _ 1 (vr_dims u)) with (nsize ds (vr_dims u)).
        destruct (deref S env p w (nsize ds (vr_dims u))) as [v|] eqn:E; [left|right; eauto]. split; [eauto|]. eexists. split; [reflexivity|]. split; [|exact q].
        split; [exact O|]. eexists. split; [eapply handle_put, H|]. split; [exact D|]. rewrite sg_upd by reflexivity. exact V.
      - exfalso. clear - Fu L V. rewrite <- V in L. clear V. unfold find_var in Fu. unfold lookup in L. induction (nf_vars g) as [|v t IHt]; [discriminate L|]. cbn in *. destruct (String.eqb (vr_name v) y); [discriminate Fu|auto]. }
    destruct Hp as [((v & E) & w' & E1 & H1 & q1)|(E & why & E1)].
    + destruct (IH w' Hv' H1 q1) as (G & K). split.
      * eapply goes_ext with (m' := fun _ => put_all S h env l w'); [unfold ibind; rewrite E1; reflexivity|]. change (goes (fun _ : world => put_all S h env l w') w) with (goes (fun _ : world => put_all S h env l w') w'). eapply goes_weaken; [exact G|]. unfold full. split.
        -- intros Hf z r [Hin|Hin]; [injection Hin as <- <-; exists dd, v, w; split; [exact L|split; [exact (proj1 Hs)|exact E]]|exact (Hf z r Hin)].
        -- intros Hf z r Hin. apply Hf. now right.
      * unfold ok, ibind. rewrite E1. cbn. exact K.
    + split; [|unfold ok, ibind; rewrite E1; exact Logic.I]. right. split; [|exists why; unfold ibind; now rewrite E1].
      intros Hf. destruct (Hf y p (or_introl eq_refl)) as (dd' & v & w0 & L' & O' & E'). rewrite L in L'. injection L' as <-.
      rewrite (deref_same env p w0 w) in E' by (rewrite O'; symmetry; exact (proj1 Hs)). congruence.
Qed.
Lemma out_finish env regs o ds vs w P : (forall y, In y (map fst regs) -> lookup vs y <> None) -> st x h o ds vs w -> wQ w = [] ->
  (full env o ds vs regs <-> P) -> out (write_and_close S (mkWr h regs) env) w P.
Proof.
  intros Hv Hs q HP. unfold write_and_close. cbn [wr_id wr_regs]. unfold nc_enddef, out, ibind at 1, Nc.call. rewrite q. cbn [wchk].
  unfold ibind at 1, iret. destruct (goes_put_all env o ds vs regs w Hv Hs q) as (G & K). unfold ibind at 1. unfold ok in K.
  destruct G as [(G & a & w' & E & q')|(G & why & E)]; rewrite E in *; [|tauto].
  destruct K as (O & g & H & D & V). unfold ibind, nc_close, Nc.call. rewrite q', H. cbn. tauto.
Qed.
End Go.

(** ** The theorem *)
Lemma block_le {T} (a : array T) sz n : asize a = sz -> n <= sz -> exists l, block a sz n = Some l.
Proof. intros E N. unfold block. rewrite E, Z.eqb_refl. destruct (Z.leb_spec n sz); [cbn; eauto|lia]. Qed.
Lemma block_inv {T} (a : array T) sz n l : block a sz n = Some l -> n <= asize a.
Proof. unfold block. destruct (Z.eqb_spec (asize a) sz) as [<-|]; [|discriminate]. destruct (Z.leb_spec n (asize a)); [auto|discriminate]. Qed.
Section Full.
Variables (env : list (string * lval S)) (o : obj) (ds : list (string * Z)) (vs : list (string * list string)) (regs : list (string * ptr)).
Hypothesis Hf : full env o ds vs regs.
Lemma full_N y k sz dd n : In (y, MemN k sz) regs -> lookup vs y = Some dd -> nsize ds dd = n -> n <= asize (oN o k).
Proof.
  intros Hi L <-. destruct (Hf _ _ Hi) as (dd' & v & w0 & L' & <- & D). rewrite L in L'. injection L' as <-. cbn in D.
  destruct (block _ _ _) as [l|] eqn:B; [|discriminate D]. now apply block_inv in B.
Qed.
Lemma full_A y k sz dd n : In (y, MemA k sz) regs -> lookup vs y = Some dd -> nsize ds dd = n -> n <= asize (oA o k).
Proof.
  intros Hi L <-. destruct (Hf _ _ Hi) as (dd' & v & w0 & L' & <- & D). rewrite L in L'. injection L' as <-. cbn in D.
  destruct (block _ _ _) as [l|] eqn:B; [|discriminate D]. now apply block_inv in B.
Qed.
Lemma full_LN y nm a sz dd n : In (y, LocN nm sz) regs -> lookup env nm = Some (LN S a) -> lookup vs y = Some dd -> nsize ds dd = n -> n <= asize a.
Proof.
  intros Hi E L <-. destruct (Hf _ _ Hi) as (dd' & v & w0 & L' & <- & D). rewrite L in L'. injection L' as <-. cbn in D. rewrite E in D.
  destruct (block _ _ _) as [l|] eqn:B; [|discriminate D]. now apply block_inv in B.
Qed.
Lemma full_LA y nm a sz dd n : In (y, LocA nm sz) regs -> lookup env nm = Some (LA S a) -> lookup vs y = Some dd -> nsize ds dd = n -> n <= asize a.
Proof.
  intros Hi E L <-. destruct (Hf _ _ Hi) as (dd' & v & w0 & L' & <- & D). rewrite L in L'. injection L' as <-. cbn in D. rewrite E in D.
  destruct (block _ _ _) as [l|] eqn:B; [|discriminate D]. now apply block_inv in B.
Qed.
End Full.
Lemma dims_mat a b c m len : 1 <= b -> dims_ok [("radius", a); ("mn_mode", b); ("mn_modes", b); ("comput_surfs", c); ("pack_rad", c); (m, len)]%string ["pack_rad"; "mn_modes"]%string.
Proof. intros N. split; [reflexivity|]. cbn. destruct b; [lia|reflexivity|lia]. Qed.

Definition sized (o : obj) : Prop := exists vb ns mn, oI o I_verbose = Some vb /\ oI o I_ns_in = Some ns /\ oI o I_mnboz = Some mn /\
  0 <= ns <= 2147483643 /\ 1 <= mn <= 2147483644 /\ 1 <= asize (oN o N_compute_surfs) <= 2147483644.

Lemma set_len {T} (a : array T) n : wf_arr a -> 0 <= n -> set_to a n -> n <= asize a.
Proof.
  intros (W1 & W2 & W3) N H. destruct (Z.eq_dec n 0) as [->|]; [unfold asize; nia|]. destruct (H (n - 1)) as (v & E); [lia|].
  assert (G : 0 <= n - 1 < Z.of_nat (List.length (adata a))) by (apply znth_Some; eauto). unfold asize. lia.
Qed.
End Proof.

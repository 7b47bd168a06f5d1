(** Property C75: what a reading stores, whatever the file contains. *)
From Coq Require Import QArith ZArith List String Bool Lia.
From Verif Require Import Scalar Prog Model Wp Func FuncExt Spec Vmec Nc NcModel NcSpec NcVoc NcThms NcThms2 NcThms3 NcThms4 Py Frame FrameThms ReadAll.
Import ListNotations.
Local Open Scope Z_scope.
Local Open Scope io_scope.

(** ** Vocabulary *)
Section Voc.
Context {S : Scalar}.
(** The values of a variable, read as floats or as ints *)
Definition numbers (f : ncfile S) (y : string) (l : list (option (F S))) : Prop := exists v, find_var f y = Some v /\
  match vr_val v with VDbl d => l = d | VInt d => l = map (option_map (fofZ S)) d | VChar _ => False end.
Definition integers (f : ncfile S) (y : string) (l : list (option Z)) : Prop := exists v, find_var f y = Some v /\
  match vr_val v with
  | VInt d => l = d
  | VDbl d => Forall2 (fun c z => match c with None => z = None | Some x => exists n, ftoZ S x = Some n /\ z = Some n end) d l
  | VChar _ => False
  end.
Definition shaped {T} (a : array T) (r c : Z) : Prop := arows a = r /\ acols a = c /\ Z.of_nat (List.length (adata a)) = r * c.
(** The elements of [a] in storage order begin with [l]. *)
Definition begins {T} (l : list (option T)) (a : array T) : Prop := exists t, adata a = l ++ t.
Definition dim (f : ncfile S) (y : string) (n : Z) : Prop := lookup (nf_dims f) y = Some n.

Definition booz_scalars : list (string * ifield) := [("nfp_b", I_nfp); ("mboz_b", I_mboz); ("nboz_b", I_nboz); ("mnboz_b", I_mnboz)]%string.
Definition booz_modes : list (string * nfield) := [("ixm_b", N_xm_b); ("ixn_b", N_xn_b)]%string.
Definition booz_radial : list (string * afield) := [("iota_b", A_iota); ("bvco_b", A_Boozer_G_all); ("buco_b", A_Boozer_I_all)]%string.
Definition booz_profiles : list (string * afield) := [("phi_b", A_phi); ("phip_b", A_phip); ("pres_b", A_pres)]%string.
Definition booz_matrices : list (string * afield) := [("bmnc_b", A_bmnc_b); ("rmnc_b", A_rmnc_b); ("zmns_b", A_zmns_b); ("gmn_b", A_gmnc_b)]%string.
Definition booz_matrices_asym : list (string * afield) := [("bmns_b", A_bmns_b); ("rmns_b", A_rmns_b); ("zmnc_b", A_zmnc_b); ("gmns_b", A_gmns_b)]%string.
End Voc.

Section Proof.
Context {S : Scalar}.
Notation obj := (obj S).
Notation world := (world S).
Notation io := (io S).
Notation F := (F S).
Notation arr := (arr S).
Notation prog := (prog S).

(** What is known of the members *)
Record known : Type := mkKn { kA : afield -> arr -> Prop; kN : nfield -> narr -> Prop; kI : ifield -> option Z -> Prop; kB : option bool -> Prop }.
Definition inv (K : known) (o : obj) : Prop :=
  (forall f, kA K f (oA o f)) /\ (forall f, kN K f (oN o f)) /\ (forall f, kI K f (oI o f)) /\ kB K (oB o B_asym).
Definition onA (K : known) f P : known := mkKn (fun g => if afield_eq_dec g f then P else kA K g) (kN K) (kI K) (kB K).
Definition onN (K : known) f P : known := mkKn (kA K) (fun g => if nfield_eq_dec g f then P else kN K g) (kI K) (kB K).
Definition onI (K : known) f P : known := mkKn (kA K) (kN K) (fun g => if ifield_eq_dec g f then P else kI K g) (kB K).
Definition onB (K : known) P : known := mkKn (kA K) (kN K) (kI K) P.
Definition nothing : known := mkKn (fun _ _ => True) (fun _ _ => True) (fun _ _ => True) (fun _ => True).
Definition anything {T} : T -> Prop := fun _ => True.

Lemma inv_A K o f a P : inv K o -> (P a : Prop) -> inv (onA K f P) (updA o f a).
Proof.
  intros (H1 & H2 & H3 & H4) Ha. repeat split; auto. intros g. cbn. destruct (afield_eq_dec g f); auto.
Qed.
Lemma inv_N K o f a P : inv K o -> (P a : Prop) -> inv (onN K f P) (updN o f a).
Proof. intros (H1 & H2 & H3 & H4) Ha. repeat split; auto. intros g. cbn. destruct (nfield_eq_dec g f); auto. Qed.
Lemma inv_I K o f a P : inv K o -> (P a : Prop) -> inv (onI K f P) (updI o f a).
Proof. intros (H1 & H2 & H3 & H4) Ha. repeat split; auto. intros g. cbn. destruct (ifield_eq_dec g f); auto. Qed.

Lemma znth_app_l {T} (l t : list T) k c : znth l k = Some c -> znth (l ++ t) k = Some c.
Proof. unfold znth. destruct (k <? 0); [discriminate|]. intros H. rewrite nth_error_app1; [exact H|]. apply nth_error_Some. congruence. Qed.

Section Go.
Variables (h : Z) (f : ncfile S).
Definition hand (w : world) : Prop := handle w h = Some (Reading f).
Definition go (K : known) {A} (m : io A) (K' : A -> known) (Q : A -> Prop) : Prop :=
  forall w, hand w -> inv K (wO w) -> match m w with IOk a w' => hand w' /\ inv (K' a) (wO w') /\ Q a | _ => True end.
Lemma go_bind {A B} K (m : io A) (g : A -> io B) K1 Q K2 R :
  go K m K1 Q -> (forall a, Q a -> go (K1 a) (g a) K2 R) -> go K (ibind m g) K2 R.
Proof.
  intros H G w Hw Hi. unfold ibind. specialize (H w Hw Hi). destruct (m w) as [a w1| | |]; auto.
  destruct H as (H1 & H2 & H3). exact (G a H3 w1 H1 H2).
Qed.
Lemma go_ret {A} K (a : A) (Q : A -> Prop) : Q a -> go K (iret a) (fun _ => K) Q.
Proof. intros H w Hw Hi. cbn. auto. Qed.
Lemma go_ub {A} K m K' (Q : A -> Prop) : go K (iub m) K' Q.
Proof. intros w Hw Hi. exact Logic.I. Qed.
Lemma go_if {A} K (c : bool) (m1 m2 : io A) K' Q : (c = true -> go K m1 K' Q) -> (c = false -> go K m2 K' Q) -> go K (if c then m1 else m2) K' Q.
Proof. destruct c; auto. Qed.

(** Programs that touch no known member *)
Lemma go_lift {A} K (p : prog A) L : spares L p ->
  go K (lift p) (fun _ => mkKn (fun g => if in_dec mem_eq_dec (MA g) L then anything else kA K g) (fun g => if in_dec mem_eq_dec (MN g) L then anything else kN K g)
                            (fun g => if in_dec mem_eq_dec (MI g) L then anything else kI K g) (if in_dec mem_eq_dec (MB B_asym) L then anything else kB K)) anything.
Proof.
  intros H w Hw (H1 & H2 & H3 & H4). unfold lift. pose proof (spares_run L p (wO w) H) as G.
  destruct (run p (wO w)) as [a o ev|e o ev|]; auto. split; [exact Hw|]. split; [|exact Logic.I]. repeat split; cbn.
  - intros g. destruct (in_dec mem_eq_dec (MA g) L) as [|N]; [exact Logic.I|]. rewrite (G (MA g) N). apply H1.
  - intros g. destruct (in_dec mem_eq_dec (MN g) L) as [|N]; [exact Logic.I|]. rewrite (G (MN g) N). apply H2.
  - intros g. destruct (in_dec mem_eq_dec (MI g) L) as [|N]; [exact Logic.I|]. rewrite (G (MI g) N). apply H3.
  - destruct (in_dec mem_eq_dec (MB B_asym) L) as [|N]; [exact Logic.I|]. rewrite (G (MB B_asym) N). apply H4.
Qed.
Lemma go_pure {A} K (p : prog A) : spares [] p -> go K (lift p) (fun _ => K) anything.
Proof.
  intros H w Hw (H1 & H2 & H3 & H4). unfold lift. pose proof (spares_run [] p (wO w) H) as G.
  destruct (run p (wO w)) as [a o ev|e o ev|]; auto. split; [exact Hw|]. split; [|exact Logic.I]. repeat split; cbn.
  - intros g. rewrite (G (MA g) (fun x => x)). apply H1.
  - intros g. rewrite (G (MN g) (fun x => x)). apply H2.
  - intros g. rewrite (G (MI g) (fun x => x)). apply H3.
  - rewrite (G (MB B_asym) (fun x => x)). apply H4.
Qed.
Lemma go_value {A} K (p : prog A) (Q : A -> Prop) : (forall o, match run p o with ROk a o' _ => o' = o /\ Q a | _ => True end) -> go K (lift p) (fun _ => K) Q.
Proof.
  intros H w Hw Hi. unfold lift. specialize (H (wO w)). destruct (run p (wO w)) as [a o ev|e o ev|]; auto. destruct H as (-> & H). auto.
Qed.
Lemma go_geti K k : go K (lift (geti k)) (fun v => onI K k (fun c => kI K k c /\ c = Some v)) anything.
Proof.
  intros w Hw Hi. unfold lift. cbn. destruct (oI (wO w) k) as [v|] eqn:E; auto. split; [exact Hw|]. split; [|exact Logic.I].
  destruct Hi as (H1 & H2 & H3 & H4). repeat split; auto. intros g. cbn. destruct (ifield_eq_dec g k) as [->|]; [|apply H3].
  split; [apply H3|exact E].
Qed.
Lemma go_getb K : go K (lift (getb B_asym)) (fun b => onB K (fun c => kB K c /\ c = Some b)) anything.
Proof.
  intros w Hw Hi. unfold lift. cbn. destruct (oB (wO w) B_asym) as [v|] eqn:E; auto. split; [exact Hw|]. split; [|exact Logic.I].
  destruct Hi as (H1 & H2 & H3 & H4). repeat split; auto.
Qed.
Lemma go_setb K b : go K (lift (setb B_asym b)) (fun _ => onB K (fun c => c = Some b)) anything.
Proof.
  intros w Hw (H1 & H2 & H3 & H4). cbn. split; [exact Hw|]. split; [|exact Logic.I]. repeat split; auto.
Qed.
Lemma go_seti K k v : go K (lift (seti k v)) (fun _ => onI K k (fun c => c = Some v)) anything.
Proof. intros w Hw Hi. cbn. split; [exact Hw|]. split; [|exact Logic.I]. now apply inv_I. Qed.
Lemma go_setn K k a (P : narr -> Prop) : P a -> go K (lift (setn k a)) (fun _ => onN K k P) anything.
Proof. intros Ha w Hw Hi. cbn. split; [exact Hw|]. split; [|exact Logic.I]. now apply inv_N. Qed.
Lemma go_setarr K k a (P : arr -> Prop) : P a -> go K (lift (setarr k a)) (fun _ => onA K k P) anything.
Proof. intros Ha w Hw Hi. cbn. split; [exact Hw|]. split; [|exact Logic.I]. now apply inv_A. Qed.
Lemma go_theobj K : go K (theobj S) (fun _ => K) (fun o => inv K o).
Proof. intros w Hw Hi. cbn. auto. Qed.
Lemma go_val {T} K (x : option T) : go K (val S x) (fun _ => K) (fun v => x = Some v).
Proof. destruct x; [now apply go_ret|apply go_ub]. Qed.

(** Shapes *)
Lemma zrepeat_len {T} (x : T) n : 0 <= n -> Z.of_nat (List.length (zrepeat x n)) = n.
Proof. intros H. unfold zrepeat. rewrite repeat_length. lia. Qed.
Lemma resize_shape {T} (a a' : array T) r c o o' ev : (Z.of_nat (List.length (adata a)) = asize a) ->
  run (S := S) (resize a r c) o = ROk a' o' ev -> shaped a' r c /\ o' = o.
Proof.
  intros Ha E. unfold resize in E. destruct ((r <? 0) || (c <? 0)) eqn:N; [discriminate E|].
  apply orb_false_iff in N. destruct N as (N1 & N2). apply Z.ltb_ge in N1, N2.
  destruct (Z.eqb_spec (r * c) (asize a)) as [Es|Es]; injection E as <- <- _; (split; [|reflexivity]); repeat split; cbn.
  - lia.
  - apply zrepeat_len. lia.
Qed.
Lemma go_resize_arr K k r c : (forall a, kA K k a -> wf_arr a) -> go K (resize_arr S k r c) (fun _ => onA K k (fun a => shaped a r c)) anything.
Proof.
  intros Hk w Hw Hi. unfold resize_arr, resize_member, lift. rewrite bind_run. cbn [getarr run]. rewrite bind_run.
  destruct (run (resize (oA (wO w) k) r c) (wO w)) as [a o ev|e o ev|] eqn:E; auto.
  - apply resize_shape in E; [|apply Hk, Hi]. destruct E as (Hs & ->). cbn. split; [exact Hw|]. split; [|exact Logic.I]. now apply inv_A.
Qed.
Lemma go_resize_ints K k n : (forall a, kN K k a -> wf_arr a) -> go K (resize_ints S k n) (fun _ => onN K k (fun a => shaped a n 1)) anything.
Proof.
  intros Hk w Hw Hi. unfold resize_ints, ibind, theobj, lift.
  destruct (run (resize (oN (wO w) k) n 1) (wO w)) as [a o ev|e o ev|] eqn:E; auto.
  - apply resize_shape in E; [|apply Hk, Hi]. destruct E as (Hs & ->). cbn. split; [exact Hw|]. split; [|exact Logic.I]. now apply inv_N.
Qed.

(** Library calls *)
Lemma hand_contents w : hand w -> contents w h = Some f.
Proof. intros E. unfold contents. now rewrite E. Qed.
Lemma call_same {A} (g : world -> ires S (code A)) (P : code A -> Prop) w :
  hand w -> (forall w, hand w -> match g w with IOk c w' => w' = w /\ P c | IThrow _ _ => False | _ => True end) ->
  match Nc.call g w with IOk c w' => hand w' /\ wO w' = wO w /\ (P c \/ exists m, c = Err m) | IThrow _ _ => False | _ => True end.
Proof.
  intros Hw H. unfold Nc.call. destruct (wQ w) as [|[|m|] q]; auto.
  - specialize (H w Hw). destruct (g w) as [c w1| | |]; auto. destruct H as (-> & H). auto.
  - specialize (H (setQ w q) Hw). destruct (g (setQ w q)) as [c w1| | |]; auto. destruct H as (-> & H). auto.
  - repeat split; eauto.
Qed.
Lemma inq_same x w : hand w ->
  match nc_inq_varid h x w with IOk c w' => hand w' /\ wO w' = wO w /\ (True \/ exists m : string, c = Err m) | IThrow _ _ => False | _ => True end.
Proof.
  intros Hw. unfold nc_inq_varid. apply (call_same _ (fun _ => True)); [exact Hw|]. intros w0 H0. rewrite (hand_contents w0 H0). destruct (find_var f x); auto.
Qed.
Lemma get_same {T} (conv : ncval S -> option (list (option T) * bool)) x buf w : hand w ->
  match nc_get conv h x buf w with
  | IOk c w' => hand w' /\ wO w' = wO w /\
     (match c with Err _ => True | Good (e, l) => List.length l = List.length buf /\
       match e with Some _ => True | None => exists l0, converts f conv x l0 /\ (List.length l0 <= List.length buf)%nat /\ l = l0 ++ skipn (List.length l0) buf end end
      \/ exists m, c = Err m)
  | IThrow _ _ => False | _ => True end.
Proof.
  intros Hw. unfold nc_get.
  apply (call_same _ (fun c => match c with Err _ => True | Good (e, l) => List.length l = List.length buf /\
       match e with Some _ => True | None => exists l0, converts f conv x l0 /\ (List.length l0 <= List.length buf)%nat /\ l = l0 ++ skipn (List.length l0) buf end end)); [exact Hw|].
  intros w0 H0. rewrite (hand_contents w0 H0). destruct (find_var f x) as [v|] eqn:V; cbn; auto.
  destruct (conv (vr_val v)) as [(l, rng)|] eqn:E; cbn; auto.
  match goal with |- context [if ?b then IUB _ else _] => destruct b eqn:B end; auto. apply Nat.ltb_ge in B. split; [reflexivity|].
  split; [rewrite app_length, skipn_length; lia|].
  destruct rng; auto. exists l. split; [exists v; auto|auto].
Qed.
(** What rget does: on success the variable was converted and stored; on failure the buffer may have been stored. *)
Lemma rget_does {T} (conv : ncval S -> option (list (option T) * bool)) x buf (store : list (option T) -> io unit) w :
  hand w -> (forall l w, hand w -> exists w', store l w = IOk tt w' /\ hand w') ->
  match rget S conv h x buf store w with
  | IOk l w' => exists l0 w1, converts f conv x l0 /\ (List.length l0 <= List.length buf)%nat /\ l = l0 ++ skipn (List.length l0) buf /\
      wO w1 = wO w /\ store l w1 = IOk tt w' /\ hand w'
  | IThrow _ w' => hand w' /\ (wO w' = wO w \/ exists l w1 w2, List.length l = List.length buf /\ wO w1 = wO w /\ store l w1 = IOk tt w2 /\ wO w' = wO w2)
  | _ => True
  end.
Proof.
  intros Hw Hs. unfold rget. unfold ibind at 1. pose proof (inq_same x w Hw) as C.
  destruct (nc_inq_varid h x w) as [c w1| | |]; auto; try contradiction. destruct C as (H1 & O1 & _).
  unfold ibind at 1. destruct c as [m|u]; [cbn; split; [exact H1|]; now left|]. cbn [rchk iret].
  unfold ibind at 1. destruct (Nat.eqb_spec (List.length buf) 0); [exact Logic.I|]. cbn [iret]. unfold ibind at 1.
  pose proof (get_same conv x buf w1 H1) as C.
  destruct (nc_get conv h x buf w1) as [c w2| | |]; auto; try contradiction. destruct C as (H2 & O2 & C).
  unfold ibind at 1. destruct c as [m|(e, l)]; [cbn; split; [exact H2|]; left; congruence|]. cbn [rchk iret].
  destruct C as [(L & C)|(m & C)]; [|discriminate C].
  unfold ibind at 1. destruct (Hs l w2 H2) as (w3 & E3 & H3). rewrite E3. destruct e as [m|].
  - cbn. split; [exact H3|]. right. exists l, w2, w3. repeat split; auto. congruence.
  - cbn. destruct C as (l0 & C1 & C2 & C3). exists l0, w2. repeat split; auto. congruence.
Qed.
Lemma converts_numbers x l : converts f to_dbl x l -> numbers f x l.
Proof. intros (v & V & C). exists v. split; [exact V|]. destruct (vr_val v); cbn in C; try discriminate C; now injection C. Qed.
Lemma converts_integers x l : converts f to_int x l -> integers f x l.
Proof.
  intros (v & V & C). exists v. split; [exact V|]. destruct (vr_val v) as [d|d|d]; cbn in C; try discriminate C; [now injection C|].
  injection C as <- N. induction d as [|c d IH]; constructor; cbn in N; apply orb_false_iff in N; destruct N as (N1 & N2); [|now apply IH].
  destruct c as [y|]; [|reflexivity]. cbn in N1 |- *. destruct (ftoZ S y) as [n|]; [|discriminate N1]. destruct (in_int n); [|discriminate N1]. eauto.
Qed.
Lemma go_get_arr K x k r c : (forall a, kA K k a -> shaped a r c) ->
  go K (get_arr S h x k) (fun _ => onA K k (fun a => shaped a r c /\ exists l, numbers f x l /\ begins l a)) anything.
Proof.
  intros Hk w Hw Hi. unfold get_arr. unfold ibind at 1, theobj. unfold ibind at 1.
  match goal with |- context [rget S to_dbl h x ?b ?st w] => pose proof (rget_does to_dbl x b st w Hw) as R end.
  specialize (R ltac:(intros l w0 H0; eexists; split; [reflexivity|exact H0])).
  destruct (rget _ _ _ _ _ _ w) as [l w'|e w'| |]; auto.
  destruct R as (l0 & w1 & C & L & -> & O1 & E & H'). cbn. cbn in E. injection E as <-. split; [exact H'|]. split; [|exact Logic.I]. cbn. rewrite O1.
  apply inv_A; [exact Hi|]. destruct (Hk _ (proj1 Hi k)) as (S1 & S2 & S3). split.
  - repeat split; cbn; auto. rewrite app_length, skipn_length. lia.
  - exists l0. split; [now apply converts_numbers|]. eexists. reflexivity.
Qed.
Lemma go_try_arr K x k r c : (forall a, kA K k a -> shaped a r c) ->
  go K (itry (get_arr S h x k)) (fun _ => onA K k (fun a => shaped a r c)) anything.
Proof.
  intros Hk w Hw Hi. unfold itry, get_arr. unfold ibind at 1, theobj. unfold ibind at 1.
  match goal with |- context [rget S to_dbl h x ?b ?st w] => pose proof (rget_does to_dbl x b st w Hw) as R end.
  specialize (R ltac:(intros l w0 H0; eexists; split; [reflexivity|exact H0])). destruct (Hk _ (proj1 Hi k)) as (S1 & S2 & S3).
  destruct (rget _ _ _ _ _ _ w) as [l w'|e w'| |]; auto.
  - destruct R as (l0 & w1 & C & L & -> & O1 & E & H'). cbn. cbn in E. injection E as <-. split; [exact H'|]. split; [|exact Logic.I]. cbn. rewrite O1.
    apply inv_A; [exact Hi|]. repeat split; cbn; auto. rewrite app_length, skipn_length. lia.
  - destruct R as (H' & [O|(l & w1 & w2 & L & O1 & E & O2)]).
    + split; [exact H'|]. split; [|exact Logic.I]. rewrite O. destruct Hi as (H1 & H2 & H3 & H4). repeat split; auto.
      intros g. cbn. destruct (afield_eq_dec g k) as [->|]; [now apply Hk|apply H1].
    + cbn in E. injection E as <-. split; [exact H'|]. split; [|exact Logic.I]. rewrite O2. cbn. rewrite O1. apply inv_A; [exact Hi|].
      repeat split; cbn; auto. rewrite L. exact S3.
Qed.
Lemma go_get_ints K x k n : (forall a, kN K k a -> shaped a n 1) ->
  go K (get_ints S h x k) (fun _ => onN K k (fun a => shaped a n 1 /\ exists l, integers f x l /\ begins l a)) anything.
Proof.
  intros Hk w Hw Hi. unfold get_ints. unfold ibind at 1, theobj. unfold ibind at 1.
  match goal with |- context [rget S to_int h x ?b ?st w] => pose proof (rget_does to_int x b st w Hw) as R end.
  specialize (R ltac:(intros l w0 H0; eexists; split; [reflexivity|exact H0])).
  destruct (rget _ _ _ _ _ _ w) as [l w'|e w'| |]; auto.
  destruct R as (l0 & w1 & C & L & -> & O1 & E & H'). cbn. cbn in E. injection E as <-. split; [exact H'|]. split; [|exact Logic.I]. cbn. rewrite O1.
  apply inv_N; [exact Hi|]. destruct (Hk _ (proj1 (proj2 Hi) k)) as (S1 & S2 & S3). split.
  - repeat split; cbn; auto. rewrite app_length, skipn_length. lia.
  - exists l0. split; [now apply converts_integers|]. eexists. reflexivity.
Qed.
Lemma go_get_int K x k : go K (get_int S h x k) (fun _ => onI K k (fun c => exists l, integers f x l /\ (l = [] \/ l = [c]))) anything.
Proof.
  intros w Hw Hi. unfold get_int. unfold ibind at 1, theobj. unfold ibind at 1.
  match goal with |- context [rget S to_int h x ?b ?st w] => pose proof (rget_does to_int x b st w Hw) as R end.
  specialize (R ltac:(intros l w0 H0; eexists; split; [reflexivity|exact H0])).
  destruct (rget _ _ _ _ _ _ w) as [l w'|e w'| |]; auto.
  destruct R as (l0 & w1 & C & L & -> & O1 & E & H'). cbn. cbn in E. injection E as <-. split; [exact H'|]. split; [|exact Logic.I]. cbn. rewrite O1.
  apply inv_I; [exact Hi|]. exists l0. split; [now apply converts_integers|].
  destruct l0 as [|y [|y2 l0]]; cbn in L; [now left|now right|lia].
Qed.
Lemma rget_local_l {T} K (conv : ncval S -> option (list (option T) * bool)) x buf : go K (rget S conv h x buf (drop S)) (fun _ => K)
  (fun l => exists l0, converts f conv x l0 /\ (List.length l0 <= List.length buf)%nat /\ l = l0 ++ skipn (List.length l0) buf).
Proof.
  intros w Hw Hi. pose proof (rget_does conv x buf (drop S) w Hw) as R. specialize (R ltac:(intros l w0 H0; eexists; split; [reflexivity|exact H0])).
  destruct (rget _ _ _ _ _ _ w) as [l w'|e w'| |]; auto. destruct R as (l0 & w1 & C & L & E1 & O1 & E & H'). injection E as <-.
  split; [exact H'|]. split; [rewrite O1; exact Hi|]. exists l0. auto.
Qed.
Lemma rget_local {T} K (conv : ncval S -> option (list (option T) * bool)) x buf : go K (rget S conv h x buf (drop S)) (fun _ => K) anything.
Proof.
  intros w Hw Hi. pose proof (rget_does conv x buf (drop S) w Hw) as R. specialize (R ltac:(intros l w0 H0; eexists; split; [reflexivity|exact H0])).
  destruct (rget _ _ _ _ _ _ w) as [l w'|e w'| |]; auto. destruct R as (l0 & w1 & C & L & E1 & O1 & E & H'). injection E as <-.
  split; [exact H'|]. split; [rewrite O1; exact Hi|exact Logic.I].
Qed.
Lemma go_get_local K x a : go K (get_local S h x a) (fun _ => K)
  (fun b => exists l, numbers f x l /\ (List.length l <= List.length (adata a))%nat /\ adata b = l ++ skipn (List.length l) (adata a)).
Proof.
  unfold get_local. eapply go_bind; [apply rget_local_l|]. intros l (l0 & C & L & ->). apply go_ret. exists l0.
  split; [now apply converts_numbers|]. auto.
Qed.
Lemma go_get_local_arr K x a r c : shaped a r c -> go K (get_local S h x a) (fun _ => K) (fun b => shaped b r c /\ exists l, numbers f x l /\ begins l b).
Proof.
  intros (S1 & S2 & S3). unfold get_local. eapply go_bind; [apply rget_local_l|]. intros l (l0 & C & L & ->). apply go_ret. split.
  - repeat split; cbn; auto. rewrite app_length, skipn_length. lia.
  - exists l0. split; [now apply converts_numbers|]. eexists. reflexivity.
Qed.
Lemma go_new {T} K (a : array T) r c : Z.of_nat (List.length (adata a)) = asize a -> go K (lift (resize a r c)) (fun _ => K) (fun b => shaped b r c).
Proof. intros Ha. apply go_value. intros o. destruct (run (resize a r c) o) as [b o' ev| |] eqn:E; auto. apply resize_shape in E; [tauto|exact Ha]. Qed.
Lemma go_get_mat K x r c : go K (get_mat S h x r c) (fun _ => K) (fun b => shaped b r c /\ exists l, numbers f x l /\ begins l b).
Proof. unfold get_mat. eapply go_bind; [apply go_new; reflexivity|]. intros a Ha. now apply go_get_local_arr. Qed.
Lemma go_get_vec K x n : go K (get_vec S h x n) (fun _ => K) (fun b => shaped b n 1 /\ exists l, numbers f x l /\ begins l b).
Proof. unfold get_vec. eapply go_bind; [apply go_new; reflexivity|]. intros a Ha. now apply go_get_local_arr. Qed.
Lemma go_get_local_int K x : go K (get_local_int S h x) (fun _ => K) (fun a => forall z, a = Some z -> integers f x [Some z]).
Proof.
  unfold get_local_int. eapply go_bind; [apply rget_local_l|]. intros l (l0 & C & L & ->). apply go_ret. intros z.
  apply converts_integers in C. destruct l0 as [|y [|y2 l0]]; cbn in L |- *; [discriminate| |lia]. now intros ->.
Qed.
Lemma go_getdim K x : go K (getdim S h x) (fun _ => K) (fun n => dim f x n).
Proof.
  intros w Hw Hi. unfold getdim. unfold ibind at 1.
  assert (C : match nc_inq_dimid h x w with IOk c w' => hand w' /\ wO w' = wO w /\ (True \/ exists m : string, c = Err m) | IThrow _ _ => False | _ => True end).
  { unfold nc_inq_dimid. apply (call_same _ (fun _ => True)); [exact Hw|]. intros w0 H0. rewrite (hand_contents w0 H0). destruct (lookup _ x); auto. }
  destruct (nc_inq_dimid h x w) as [c w1| | |]; auto. destruct C as (H1 & O1 & _). unfold ibind at 1. destruct c as [m|u]; [exact Logic.I|]. cbn [rchk iret].
  unfold ibind at 1.
  assert (C : match nc_inq_dimlen h x w1 with IOk c w' => hand w' /\ wO w' = wO w1 /\ (match c with Good n => dim f x n | Err _ => True end \/ exists m : string, c = Err m) | IThrow _ _ => False | _ => True end).
  { unfold nc_inq_dimlen. apply (call_same _ (fun c => match c with Good n => dim f x n | Err _ => True end)); [exact H1|].
    intros w0 H0. rewrite (hand_contents w0 H0). destruct (lookup _ x) as [n|] eqn:E; split; auto. }
  destruct (nc_inq_dimlen h x w1) as [c w2| | |]; auto. destruct C as (H2 & O2 & C). destruct c as [m|n]; [exact Logic.I|]. cbn.
  split; [exact H2|]. split; [rewrite O2, O1; exact Hi|]. destruct C as [C|(m & C)]; [exact C|discriminate C].
Qed.

(** A loop that ends normally *)
Lemma for_from_ok {St} (body : Z -> St -> prog St) (Inv : Z -> St -> Prop) (o : obj) :
  (forall i st st' o' ev, Inv i st -> run (body i st) o = ROk st' o' ev -> o' = o /\ Inv (i + 1) st') ->
  forall n lo st st' o' ev, Inv lo st -> run (for_from n lo st body) o = ROk st' o' ev -> o' = o /\ Inv (lo + Z.of_nat n) st'.
Proof.
  intros Hb n. induction n as [|n IH]; intros lo st st' o' ev Hi E.
  - cbn in E. injection E as <- <- _. rewrite Z.add_0_r. auto.
  - cbn [for_from] in E. rewrite bind_run in E. destruct (run (body lo st) o) as [s1 o1 e1| |] eqn:E1; try discriminate E.
    destruct (Hb _ _ _ _ _ Hi E1) as (-> & H1). destruct (run (for_from n (lo + 1) s1 body) o) as [s2 o2 e2| |] eqn:E2; try discriminate E.
    injection E as <- <- _. destruct (IH _ _ _ _ _ H1 E2) as (-> & H2). split; [reflexivity|]. replace (lo + Z.of_nat (Datatypes.S n)) with (lo + 1 + Z.of_nat n) by lia. exact H2.
Qed.
Lemma begins_pt {T} (l d : list T) : (forall n c, nth_error l n = Some c -> nth_error d n = Some c) -> exists t, d = l ++ t.
Proof.
  revert d. induction l as [|x l IH]; intros d H; [exists d; reflexivity|].
  pose proof (H O x eq_refl) as H0. destruct d as [|y d]; [discriminate H0|]. injection H0 as ->.
  destruct (IH d) as (t & ->); [intros n c; exact (H (Datatypes.S n) c)|]. exists t. reflexivity.
Qed.
Lemma znth_nth {T} (l : list T) n : znth l (Z.of_nat n) = nth_error l n.
Proof. unfold znth. destruct (Z.ltb_spec (Z.of_nat n) 0); [lia|]. now rewrite Nat2Z.id. Qed.
(** A pass over an array that replaces every element *)
Lemma begins_map {T} (a b : array T) (g : T -> T) n l :
  Z.of_nat (List.length (adata a)) = n ->
  (forall k, 0 <= k < n -> exists x, znth (adata a) k = Some (Some x) /\ znth (adata b) k = Some (Some (g x))) ->
  begins l a -> begins (map (option_map g) l) b.
Proof.
  intros Ha H (t & E). unfold begins. apply begins_pt. intros m c Hc. rewrite nth_error_map in Hc.
  destruct (nth_error l m) as [c0|] eqn:El; [|discriminate Hc]. injection Hc as <-.
  assert (Em : znth (adata a) (Z.of_nat m) = Some c0).
  { rewrite znth_nth, E. rewrite nth_error_app1; [exact El|]. apply nth_error_Some. congruence. }
  assert (Hm : 0 <= Z.of_nat m < n). { rewrite <- Ha. apply znth_Some. eauto. }
  destruct (H _ Hm) as (x & E1 & E2). rewrite <- znth_nth, E2. rewrite Em in E1. injection E1 as ->. reflexivity.
Qed.
Lemma neg_ok (a b : arr) o o' ev r c : shaped a r c -> run (neg_arr S a) o = ROk b o' ev ->
  o' = o /\ shaped b r c /\ (forall l, begins l a -> begins (map (option_map (fneg S)) l) b).
Proof.
  intros (S1 & S2 & S3) E. assert (Hp : 0 <= r * c) by lia. unfold neg_arr in E. rewrite bind_run in E.
  destruct (run (for_ 0 _ _ _) o) as [b0 o0 e0| |] eqn:E0; try discriminate E. cbn in E. injection E as -> -> _.
  unfold for_ in E0. eapply for_from_ok with (lo := 0) (Inv := fun i (b : arr) => arows b = r /\ acols b = c /\ Z.of_nat (List.length (adata b)) = r * c /\
    forall k, 0 <= k < i -> exists x, znth (adata a) k = Some (Some x) /\ znth (adata b) k = Some (Some (fneg S x))) in E0.
  - destruct E0 as (-> & H1 & H2 & H3 & H4). split; [reflexivity|]. split; [repeat split; assumption|].
    intros l Hl. eapply begins_map; [exact S3| |exact Hl]. intros k Hk. apply H4. unfold asize. rewrite S1, S2. lia.
  - clear E0. intros i st st' o1 ev1 (H1 & H2 & H3 & H4) R. rewrite bind_run in R. unfold vget in R.
    destruct (znth (adata a) i) as [[x|]|] eqn:Ex; try discriminate R. cbn in R. unfold vset in R.
    destruct (znth (adata st) i) as [y|] eqn:Ey; [|discriminate R]. cbn in R. injection R as <- <- _. split; [reflexivity|]. cbn.
    split; [exact H1|]. split; [exact H2|]. split; [now rewrite zset_length|]. intros k Hk. destruct (Z.eq_dec k i) as [->|Hki].
    + exists x. split; [exact Ex|]. apply znth_zset_same. apply znth_Some. eauto.
    + destruct (H4 k ltac:(lia)) as (x' & X1 & X2). exists x'. split; [exact X1|]. rewrite znth_zset_other by (try lia; assumption). exact X2.
  - cbn. unfold asize. rewrite S1, S2. split; [reflexivity|]. split; [reflexivity|]. split; [apply zrepeat_len; lia|]. intros k Hk. lia.
Qed.
Lemma go_neg K k r c l0 : (forall a, kA K k a -> shaped a r c /\ exists l, l0 l /\ begins l a) ->
  go K (lift (bind (getarr k) (neg_arr S))) (fun _ => K) (fun b => shaped b r c /\ exists l, l0 l /\ begins (map (option_map (fneg S)) l) b).
Proof.
  intros Hk w Hw Hi. unfold lift. rewrite bind_run. cbn [getarr run].
  destruct (run (neg_arr S (oA (wO w) k)) (wO w)) as [b o ev|e o ev|] eqn:E; auto.
  destruct (Hk _ (proj1 Hi k)) as (Hs & l & L0 & Hl). destruct (neg_ok _ _ _ _ _ _ _ Hs E) as (-> & Hb & Hm).
  split; [exact Hw|]. split; [exact Hi|]. split; [exact Hb|]. exists l. auto.
Qed.
Lemma go_minus2 K (a : narr) n (l0 : list (option Z) -> Prop) : shaped a n 1 -> (exists l, l0 l /\ begins l a) ->
  go K (lift (for_ 0 n a (fun j a => bind (vget a j) (fun x => bind (isub x 2) (fun y => vset a j y))))) (fun _ => K)
    (fun b => shaped b n 1 /\ exists l, l0 l /\ begins (map (option_map (fun x => x - 2)) l) b).
Proof.
  intros (S1 & S2 & S3) (l & L0 & Hl). apply go_value. intros o.
  destruct (run (for_ 0 n a _) o) as [b o' ev| |] eqn:E; auto. unfold for_ in E.
  eapply for_from_ok with (lo := 0) (Inv := fun i (b : narr) => arows b = n /\ acols b = 1 /\ Z.of_nat (List.length (adata b)) = n * 1 /\
    (forall k, i <= k -> znth (adata b) k = znth (adata a) k) /\
    forall k, 0 <= k < i -> exists x, znth (adata a) k = Some (Some x) /\ znth (adata b) k = Some (Some (x - 2))) in E.
  - destruct E as (-> & H1 & H2 & H3 & _ & H4). split; [reflexivity|]. split; [repeat split; assumption|].
    exists l. split; [exact L0|]. eapply (begins_map a b (fun x => x - 2)); [exact S3| |exact Hl]. intros k Hk. apply H4. lia.
  - clear E. intros i st st' o1 ev1 (H1 & H2 & H3 & H5 & H4) R. rewrite bind_run in R. unfold vget in R.
    destruct (znth (adata st) i) as [[x|]|] eqn:Ex; try discriminate R. cbn [run] in R. rewrite bind_run in R. unfold isub, int_ in R.
    destruct (in_int (x - 2)); [|discriminate R]. cbn [run] in R. unfold vset in R. rewrite Ex in R. cbn in R. injection R as <- <- _. split; [reflexivity|]. cbn.
    split; [exact H1|]. split; [exact H2|]. split; [now rewrite zset_length|].
    assert (Hi : 0 <= i < Z.of_nat (List.length (adata st))) by (apply znth_Some; eauto).
    split; [intros k Hk; rewrite znth_zset_other by lia; apply H5; lia|]. intros k Hk. destruct (Z.eq_dec k i) as [->|Hki].
    + exists x. rewrite <- H5 by lia. split; [exact Ex|]. now apply znth_zset_same.
    + destruct (H4 k ltac:(lia)) as (x' & X1 & X2). exists x'. split; [exact X1|]. rewrite znth_zset_other by lia. exact X2.
  - cbn. split; [exact S1|]. split; [exact S2|]. split; [exact S3|]. split; [reflexivity|]. intros k Hk. lia.
Qed.

(** The end of a reading *)
Definition fin (K : known) {A} (m : io A) (P : obj -> Prop) : Prop :=
  forall w, hand w -> inv K (wO w) -> match m w with IOk _ w' => P (wO w') | _ => True end.
Lemma fin_bind {A B} K (m : io A) (g : A -> io B) K1 Q P :
  go K m K1 Q -> (forall a, Q a -> fin (K1 a) (g a) P) -> fin K (ibind m g) P.
Proof.
  intros H G w Hw Hi. unfold ibind. specialize (H w Hw Hi). destruct (m w) as [a w1| | |]; auto.
  destruct H as (H1 & H2 & H3). exact (G a H3 w1 H1 H2).
Qed.
Lemma fin_close K (P : obj -> Prop) : (forall o, inv K o -> P o) -> fin K (rclose S h) P.
Proof.
  intros H w Hw Hi. unfold rclose, ibind, nc_close, Nc.call.
  assert (C : forall w0, hand w0 -> wO w0 = wO w ->
    match (match handle w0 h with
     | None => IOk (Err "NetCDF: Not a valid ID") w0 | Some (Reading _) => IOk (Good tt) (drop_handle w0 h)
     | Some (Writing x f) => IOk (Good tt) (setFS (drop_handle w0 h) x (Whole f)) end) with
    | IOk a w' => match rchk S "close()" a w' with IOk _ w' => P (wO w') | _ => True end
    | _ => True end).
  { intros w0 H0 O0. rewrite H0. cbn. rewrite O0. now apply H. }
  destruct (wQ w) as [|[|m|] q]; try exact Logic.I.
  - specialize (C w Hw eq_refl). destruct (handle w h) as [[]|]; exact C.
  - specialize (C (setQ w q) Hw eq_refl). cbn in C |- *. destruct (handle _ h) as [[]|]; exact C.
Qed.
End Go.

Definition start : known := mkKn (fun _ => wf_arr) (fun _ => wf_arr) (fun _ _ => True) (fun _ => True).
Lemma go_int h f K n : go h f K (lift (int_ n)) (fun _ => K) (fun m => m = n).
Proof. apply go_value. intros o. unfold int_. destruct (in_int n); cbn; auto. Qed.
Lemma go_isub h f K a b : go h f K (lift (isub a b)) (fun _ => K) (fun m => m = a - b).
Proof. apply go_int. Qed.
Lemma go_iadd h f K a b : go h f K (lift (iadd a b)) (fun _ => K) (fun m => m = a + b).
Proof. apply go_int. Qed.
Lemma go_fill h f K k n x : (forall j, spares [] (x j)) -> go h f K (lift (fill_vec S k n x)) (fun _ => onA K k (fun _ => True)) anything.
Proof.
  intros Hx w Hw Hi.
  assert (Sp : spares [MA k] (fill_vec S k n x)).
  { apply spares_fill; [now left|]. intros j. eapply spares_mono; [|apply Hx]. intros y []. }
  pose proof (spares_run _ _ (wO w) Sp) as G. unfold lift. destruct (run (fill_vec S k n x) (wO w)) as [a o ev|e o ev|]; auto.
  split; [exact Hw|]. split; [|exact Logic.I]. destruct Hi as (H1 & H2 & H3 & H4). repeat split; cbn.
  - intros g. destruct (afield_eq_dec g k) as [|N]; [exact Logic.I|]. rewrite (G (MA g)); [apply H1|]. intros [E|[]]. injection E as E. congruence.
  - intros g. rewrite (G (MN g)); [apply H2|]. intros [E|[]]. discriminate E.
  - intros g. rewrite (G (MI g)); [apply H3|]. intros [E|[]]. discriminate E.
  - rewrite (G (MB B_asym)); [apply H4|]. intros [E|[]]. discriminate E.
Qed.
Lemma go_new_vec h f K n : go h f K (new_vec S n) (fun _ => K) (fun a => adata a = zrepeat None n).
Proof.
  apply go_value. intros o. unfold resize. destruct ((n <? 0) || (1 <? 0)) eqn:N; [exact Logic.I|].
  destruct (Z.eqb_spec (n * 1) (asize (@empty_vec (F)))) as [E|E]; cbn; (split; [reflexivity|]).
  - change (n * 1 = 0) in E. replace n with 0 by lia. reflexivity.
  - now rewrite Z.mul_1_r.
Qed.
(** A pass over a member that sets every element *)
Lemma go_fill_to h f K k n (x : Z -> prog F) (R : Z -> F -> Prop) : (forall a, kA K k a -> shaped a n 1) ->
  (forall j o v o' ev, inv K o -> run (x j) o = ROk v o' ev -> o' = o /\ R j v) ->
  go h f K (lift (fill_vec S k n x)) (fun _ => onA K k (fun a => shaped a n 1 /\ forall j, 0 <= j < n -> exists v, R j v /\ znth (adata a) j = Some (Some v))) anything.
Proof.
  intros Hk Hx w Hw Hi. unfold lift, fill_vec. rewrite bind_run. cbn [getarr run]. rewrite bind_run.
  destruct (Hk _ (proj1 Hi k)) as (S1 & S2 & S3). set (a := oA (wO w) k) in *. set (o := wO w) in *.
  destruct (run (for_ 0 n a _) o) as [b o1 e1| |] eqn:E; auto. unfold for_ in E.
  eapply for_from_ok with (lo := 0) (Inv := fun i (b : arr) => arows b = n /\ acols b = 1 /\ Z.of_nat (List.length (adata b)) = n * 1 /\
    forall j, 0 <= j < i -> exists v, R j v /\ znth (adata b) j = Some (Some v)) in E.
  - destruct E as (-> & H1 & H2 & H3 & H4). cbn. split; [exact Hw|]. split; [|exact Logic.I]. apply inv_A; [exact Hi|].
    split; [repeat split; assumption|]. intros j Hj. apply H4. lia.
  - clear E. intros i st st' o2 ev2 (H1 & H2 & H3 & H4) E. rewrite bind_run in E. destruct (run (x i) o) as [v o3 e3| |] eqn:Ex; try discriminate E.
    destruct (Hx _ _ _ _ _ Hi Ex) as (-> & Hv). unfold vset in E. destruct (znth (adata st) i) as [y|] eqn:Ey; [|discriminate E]. cbn in E. injection E as <- <- _.
    split; [reflexivity|]. cbn. split; [exact H1|]. split; [exact H2|]. split; [now rewrite zset_length|].
    assert (Hr : 0 <= i < Z.of_nat (List.length (adata st))) by (apply znth_Some; eauto).
    intros j Hj. destruct (Z.eq_dec j i) as [->|Hji].
    + exists v. split; [exact Hv|]. now apply znth_zset_same.
    + destruct (H4 j ltac:(lia)) as (v' & V1 & V2). exists v'. split; [exact V1|]. rewrite znth_zset_other by lia. exact V2.
  - split; [exact S1|]. split; [exact S2|]. split; [exact S3|]. intros j Hj. lia.
Qed.
Lemma go_copy h f K k n (a : arr) : (forall a, kA K k a -> shaped a n 1) ->
  go h f K (lift (fill_vec S k n (fun j => vget a (j + 1))))
    (fun _ => onA K k (fun b => shaped b n 1 /\ forall j, 0 <= j < n -> exists v, znth (adata a) (j + 1) = Some (Some v) /\ znth (adata b) j = Some (Some v))) anything.
Proof.
  intros Hk. apply (go_fill_to h f K k n _ (fun j v => znth (adata a) (j + 1) = Some (Some v))); [exact Hk|].
  intros j o v o' ev _ E. unfold vget in E. destruct (znth (adata a) (j + 1)) as [[y|]|]; try discriminate E. cbn in E. injection E as <- <- _. auto.
Qed.
Lemma go_s_b h f K n (cs : narr) (g : Z -> F) : (forall a, kA K A_s_b a -> shaped a n 1) -> (forall a, kN K N_compute_surfs a -> a = cs) ->
  go h f K (lift (fill_vec S A_s_b n (fun j => bind (getn N_compute_surfs j) (fun c => Ret (g c)))))
    (fun _ => onA K A_s_b (fun b => shaped b n 1 /\ forall j, 0 <= j < n -> exists v, (exists c, znth (adata cs) j = Some (Some c) /\ v = g c) /\ znth (adata b) j = Some (Some v))) anything.
Proof.
  intros Hk Hc. apply (go_fill_to h f K A_s_b n _ (fun j v => exists c, znth (adata cs) j = Some (Some c) /\ v = g c)); [exact Hk|].
  intros j o v o' ev Hi E. rewrite bind_run in E. cbn in E. rewrite (Hc _ (proj1 (proj2 Hi) N_compute_surfs)) in E.
  destruct (znth (adata cs) j) as [[c|]|]; try discriminate E. cbn in E. injection E as <- <- _. split; [reflexivity|]. eauto.
Qed.
Lemma copied (l d : list (option F)) (b : arr) n r : r = n + 1 -> shaped b n 1 -> (List.length l <= List.length (zrepeat (@None F) r))%nat ->
  d = l ++ skipn (List.length l) (zrepeat None r) ->
  (forall j, 0 <= j < n -> exists v, znth d (j + 1) = Some (Some v) /\ znth (adata b) j = Some (Some v)) -> tl l = adata b.
Proof.
  intros -> (S1 & S2 & S3) L -> H. unfold zrepeat in L. rewrite repeat_length in L.
  destruct (Z.eq_dec n 0) as [->|Hn].
  - destruct (adata b); [|cbn in S3; lia]. destruct l as [|c [|c2 l]]; cbn in L |- *; auto; lia.
  - assert (Hn1 : 1 <= n) by lia.
    assert (K : forall j, 0 <= j < n -> exists v, nth_error l (Z.to_nat (j + 1)) = Some (Some v) /\ znth (adata b) j = Some (Some v)).
    { intros j Hj. destruct (H j Hj) as (v & V1 & V2). exists v. split; [|exact V2]. revert V1. unfold znth. destruct (Z.ltb_spec (j + 1) 0); [discriminate|].
      destruct (Nat.lt_ge_cases (Z.to_nat (j + 1)) (List.length l)) as [Hl|Hl]; [now rewrite nth_error_app1|].
      rewrite nth_error_app2 by exact Hl. intros V1. exfalso. apply nth_error_In in V1.
      assert (G : forall q m, In (Some v) (skipn q (repeat (@None F) m)) -> False).
      { intros q m HI. assert (HJ : In (Some v) (repeat (@None F) m)) by (rewrite <- (firstn_skipn q (repeat None m)); apply in_or_app; now right).
        apply repeat_spec in HJ. discriminate HJ. }
      exact (G _ _ V1). }
    assert (Ll : List.length l = Z.to_nat (n + 1)).
    { destruct (K (n - 1) ltac:(lia)) as (v & V1 & _). assert (N : (Z.to_nat (n - 1 + 1) < List.length l)%nat) by (apply nth_error_Some; congruence). lia. }
    destruct l as [|c l]; [cbn in Ll; lia|]. cbn [tl]. cbn [List.length] in Ll.
    destruct (begins_pt l (adata b)) as (t & Et).
    { intros m c0 Hm. assert (Lm : (m < List.length l)%nat) by (apply nth_error_Some; congruence).
      destruct (K (Z.of_nat m) ltac:(lia)) as (v & V1 & V2). replace (Z.to_nat (Z.of_nat m + 1)) with (Datatypes.S m) in V1 by lia. cbn in V1.
      rewrite Hm in V1. injection V1 as ->. now rewrite <- znth_nth. }
    rewrite Et in *. rewrite app_length in S3. destruct t; [now rewrite app_nil_r|]. cbn in S3. lia.
Qed.
Lemma go_setf h f K k x : go h f K (lift (setf k x)) (fun _ => K) anything.
Proof. intros w Hw Hi. cbn. split; [exact Hw|]. split; [exact Hi|exact Logic.I]. Qed.

Ltac known_shape := let H := fresh in intros ? H; cbn in H; first [exact H|exact (proj1 H)].
Ltac rule := lazymatch goal with
  | |- go _ _ _ (get_int _ _ _ _) _ _ => apply go_get_int
  | |- go _ _ _ (get_ints _ _ _ _) _ _ => eapply go_get_ints; known_shape
  | |- go _ _ _ (get_arr _ _ _ _) _ _ => eapply go_get_arr; known_shape
  | |- go _ _ _ (itry _) _ _ => eapply go_try_arr; known_shape
  | |- go _ _ _ (get_local _ _ _ _) _ _ => apply go_get_local
  | |- go _ _ _ (get_local_int _ _ _) _ _ => apply go_get_local_int
  | |- go _ _ _ (getdim _ _ _) _ _ => apply go_getdim
  | |- go _ _ _ (val _ _) _ _ => apply go_val
  | |- go _ _ _ (theobj _) _ _ => apply go_theobj
  | |- go _ _ _ (resize_ints _ _ _) _ _ => apply go_resize_ints; known_shape
  | |- go _ _ _ (resize_arr _ _ _ _) _ _ => apply go_resize_arr; known_shape
  | |- go _ _ _ (new_vec _ _) _ _ => apply go_new_vec
  | |- go _ _ _ (chatter _ _) _ _ => apply go_pure; sp; first [apply spares_elems|apply spares_elems_n|idtac]
  | |- go _ _ _ (lift (getb B_asym)) _ _ => apply go_getb
  | |- go _ _ _ (lift (geti _)) _ _ => apply go_geti
  | |- go _ _ _ (lift (seti _ _)) _ _ => apply go_seti
  | |- go _ _ _ (lift (setf _ _)) _ _ => apply go_setf
  | |- go _ _ _ (lift (int_ _)) _ _ => apply go_int
  | |- go _ _ _ (lift (isub _ _)) _ _ => apply go_isub
  | |- go _ _ _ (lift (iadd _ _)) _ _ => apply go_iadd
  | |- go _ _ _ (lift (getv _ _)) _ _ => apply go_pure; sp
  | |- go _ _ _ (lift (fill_vec _ _ _ (fun j => vget _ (j + 1)))) _ _ => apply go_copy; known_shape
  | |- go _ _ _ (lift (fill_vec _ A_s_b _ _)) _ _ => match goal with Hcs : shaped ?cs _ 1 /\ _ |- _ => apply (go_s_b _ _ _ _ cs); known_shape end
  | |- go _ _ _ (lift (bind (getarr _) (neg_arr _))) _ _ => eapply go_neg; let H := fresh in intros ? H; cbn in H; exact H
  end.
Ltac f1 := eapply fin_bind; [rule|let H := fresh in intros ? H; cbn beta in H |- *].
Ltac r1 := eapply go_bind; [rule|let H := fresh in intros ? H; cbn beta in H |- *].

Definition booz_claim (f : ncfile S) (o : obj) : Prop := exists mn ns nb asy,
  oI o I_mnboz = Some mn /\ oI o I_ns_in = Some ns /\ oI o I_ns_b = Some nb /\ oB o B_asym = Some asy /\
  (exists z, integers f "lasym__logical__" [Some z] /\ (asy = true <-> z <> 0)) /\
  dim f "radius" (ns + 1) /\ dim f "comput_surfs" nb /\
  (forall y k, In (y, k) booz_scalars -> exists l, integers f y l /\ (l = [] \/ l = [oI o k])) /\
  (forall y k, In (y, k) booz_modes -> shaped (oN o k) mn 1 /\ exists l, integers f y l /\ begins l (oN o k)) /\
  (shaped (oN o N_compute_surfs) nb 1 /\ exists l, integers f "jlist" l /\ begins (map (option_map (fun x => x - 2)) l) (oN o N_compute_surfs)) /\
  (forall y k, In (y, k) booz_profiles -> shaped (oA o k) (ns + 1) 1 /\ exists l, numbers f y l /\ begins l (oA o k)) /\
  shaped (oA o A_chi) (ns + 1) 1 /\
  (forall y k, In (y, k) booz_radial -> shaped (oA o k) ns 1 /\ exists l, numbers f y l /\ tl l = adata (oA o k)) /\
  (forall y k, In (y, k) booz_matrices -> shaped (oA o k) mn nb /\ exists l, numbers f y l /\ begins l (oA o k)) /\
  (shaped (oA o A_numns_b) mn nb /\ exists l, numbers f "pmns_b" l /\ begins (map (option_map (fneg S)) l) (oA o A_numns_b)) /\
  (asy = true ->
    (forall y k, In (y, k) booz_matrices_asym -> shaped (oA o k) mn nb /\ exists l, numbers f y l /\ begins l (oA o k)) /\
    shaped (oA o A_numnc_b) mn nb /\ exists l, numbers f "pmnc_b" l /\ begins (map (option_map (fneg S)) l) (oA o A_numnc_b)) /\
  (asy = false -> forall k, In k [A_bmns_b; A_rmns_b; A_zmnc_b; A_numnc_b; A_gmns_b] -> shaped (oA o k) 0 0) /\
  shaped (oA o A_s_b) nb 1 /\ exists nv, integers f "ns_b" [Some nv] /\ forall j, 0 <= j < nb -> exists c, znth (adata (oN o N_compute_surfs)) j = Some (Some c) /\
    znth (adata (oA o A_s_b)) j = Some (Some (f1 S / (fofZ S nv - f1 S) * (fofZ S c + flit S (1 # 2)))%sc).

Ltac each H := let y := fresh in let k := fresh in let E := fresh in
  let G := fresh in intros y k E; pose proof (H k) as G; repeat destruct E as [E|E]; try contradiction; injection E as <- <-; exact G.
Ltac flag HB := let B1 := fresh in let B2 := fresh in cbn in HB; destruct HB as (B1 & B2); rewrite B1 in B2; injection B2 as B2;
  match goal with H : forall z, ?x = Some z -> integers _ "lasym__logical__" _, G : ?x = Some ?a |- _ => exists a; split; [exact (H a G)|]; destruct (Z.eqb_spec a 0); cbn in B2; split; congruence end.
Ltac radials HA := let y := fresh in let k := fresh in let E := fresh in let G := fresh in
  intros y k E; pose proof (HA k) as G; repeat destruct E as [E|E]; try contradiction; injection E as <- <-; cbn in G;
  let G1 := fresh in let G2 := fresh in destruct G as (G1 & G2); split; [exact G1|];
  match goal with H : exists l, numbers ?f ?y l /\ _ /\ adata ?a = _, G2 : forall j, _ -> exists v, znth (adata ?a) (j + 1) = _ /\ _ |- exists l, numbers ?f ?y l /\ _ =>
    let l := fresh in let L1 := fresh in let L2 := fresh in let L3 := fresh in destruct H as (l & L1 & L2 & L3); exists l; split; [exact L1|];
    match goal with N : adata ?a0 = zrepeat None ?r, L2 : (List.length l <= List.length (adata ?a0))%nat |- _ => rewrite N in L2, L3; refine (copied l _ _ _ r _ G1 L2 L3 G2); lia end end.
Ltac conclude HA HN HI HB :=
  match goal with H : ?x = _ + 1 |- _ => subst x end;
  eexists; eexists; eexists; eexists; split; [exact (proj2 (HI I_mnboz))|]; split; [exact (HI I_ns_in)|]; split; [exact (HI I_ns_b)|]; split; [exact (proj2 HB)|]; split; [flag HB|];
  split; [match goal with H : dim ?f "radius" ?n |- dim ?f "radius" ?m => replace m with n by lia; exact H end|];
  split; [match goal with H : dim ?f "comput_surfs" ?n |- dim ?f "comput_surfs" ?m => replace m with n by lia; exact H end|];
  split; [let y := fresh in let k := fresh in let E := fresh in let G := fresh in intros y k E; pose proof (HI k) as G; repeat destruct E as [E|E]; try contradiction; injection E as <- <-; first [exact G|exact (proj1 G)]|];
  split; [each HN|]; split; [let G := fresh in pose proof (HN N_compute_surfs) as G; cbn in G; rewrite !G; match goal with Hcs : shaped ?cs _ 1 /\ _ |- shaped ?cs _ 1 /\ _ => exact Hcs end|]; split; [each HA|]; split; [exact (HA A_chi)|];
  split; [radials HA|]; split; [each HA|]; split; [exact (HA A_numns_b)|];
  split; [let E := fresh in intros E; first [discriminate E|split; [each HA|exact (HA A_numnc_b)]]|];
  split; [let E := fresh in intros E; first [discriminate E|let k := fresh in let G := fresh in let G' := fresh in intros k G; pose proof (HA k) as G'; repeat destruct G as [<-|G]; try contradiction; exact G']|];
  split; [exact (proj1 (HA A_s_b))|];
  match goal with H : forall z, ?x = Some z -> integers _ "ns_b" _, G : ?x = Some ?a |- _ => exists a; split; [exact (H a G)|] end;
  let G := fresh in pose proof (HN N_compute_surfs) as G; cbn in G; rewrite !G; let j := fresh in let Hj := fresh in intros j Hj; destruct (proj2 (HA A_s_b) j Hj) as (? & (? & ? & ->) & ?); eauto.
Theorem boozmn_stores x (w w' : world) : wf_obj (wO w) -> read_boozmn S x w = IOk tt w' ->
  exists f, wFS w x = Some (Whole f) /\ booz_claim f (wO w').
Proof.
  intros Wf E. unfold read_boozmn in E. apply bind_ok in E. destruct E as ([] & w1 & E1 & E).
  assert (Hw1 : wO w1 = wO w /\ wFS w1 = wFS w).
  { unfold chatter, lift in E1. cbn in E1. destruct (oI (wO w) I_verbose) as [v|]; [|discriminate E1]. destruct (0 <? v); injection E1 as <-; auto. }
  destruct Hw1 as (O1 & F1). apply bind_ok in E. destruct E as (h & w2 & E2 & E). apply reader_opens in E2.
  destruct E2 as (f & X2 & H2 & O2 & _). exists f. split; [congruence|].
  assert (Hi : inv start (wO w2)).
  { rewrite O2, O1. destruct Wf as [WN WA]. repeat split; try apply WN; try apply WA. }
  clear E1 O1 F1 X2 O2 Wf w w1. revert w2 H2 Hi E.
  match goal with |- forall w2, _ -> _ -> ?m w2 = _ -> _ => enough (G : fin h f start m (booz_claim f)) end.
  { intros w2 H2 Hi E. specialize (G w2 H2 Hi). rewrite E in G. exact G. }
  do 2 f1. eapply fin_bind; [apply go_setb|]. intros ? ?. cbn beta.
  repeat f1.
  eapply fin_bind.
  { match goal with Ho : inv _ ?o |- _ => pose proof (proj1 (proj2 Ho) N_compute_surfs) as Hj; cbn in Hj; destruct Hj as (Hj1 & Hj2) end.
    eapply go_minus2; [exact Hj1|exact Hj2]. }
  intros cs Hcs. cbn beta in Hcs |- *. eapply fin_bind; [apply go_setn with (P := fun b => b = cs); reflexivity|]. intros ? ?. cbn beta.
  repeat f1.
  eapply fin_bind; [eapply go_setarr with (P := fun b => shaped b _ _ /\ exists l, numbers f "pmns_b" l /\ begins (map (option_map (fneg S)) l) b); eassumption|]. intros ? ?. cbn beta.
  repeat f1.
  match goal with |- context [if ?b then _ else _] => destruct b end.
  - eapply fin_bind.
    { repeat r1. eapply go_bind; [eapply go_setarr with (P := fun b => shaped b _ _ /\ exists l, numbers f "pmnc_b" l /\ begins (map (option_map (fneg S)) l) b); eassumption|]. intros ? ?. cbn beta. rule. }
    intros ? ?. cbn beta. repeat f1. apply fin_close. intros o (HA & HN & HI & HB). conclude HA HN HI HB.
  - eapply fin_bind; [repeat r1; rule|]. intros ? ?. cbn beta. repeat f1. apply fin_close. intros o (HA & HN & HI & HB). conclude HA HN HI HB.
Qed.

(** read_wout *)
Lemma go_getn h f K k i : go h f K (lift (getn k i)) (fun v => onN K k (fun a => kN K k a /\ znth (adata a) i = Some (Some v))) anything.
Proof.
  intros w Hw Hi. unfold lift. cbn. destruct (znth (adata (oN (wO w) k)) i) as [[v|]|] eqn:E; auto. split; [exact Hw|]. split; [|exact Logic.I].
  destruct Hi as (H1 & H2 & H3 & H4). repeat split; auto. intros g. cbn. destruct (nfield_eq_dec g k) as [->|]; [|apply H2]. split; [apply H2|exact E].
Qed.
Lemma go_idiv h f K a b : go h f K (lift (idiv a b)) (fun _ => K) (fun q => b <> 0 /\ q = Z.quot a b).
Proof.
  apply go_value. intros o. unfold idiv. destruct (Z.eqb_spec b 0); cbn; auto. unfold int_. destruct (in_int _); cbn; auto.
Qed.
Lemma go_get_flt h f K x k : go h f K (get_flt S h x k) (fun _ => K) anything.
Proof.
  intros w Hw Hi. unfold get_flt. unfold ibind at 1, theobj. unfold ibind at 1.
  match goal with |- context [rget S to_dbl h x ?b ?st w] => pose proof (rget_does h f to_dbl x b st w Hw) as R end.
  specialize (R ltac:(intros l w0 H0; eexists; split; [reflexivity|exact H0])).
  destruct (rget _ _ _ _ _ _ w) as [l w'|e w'| |]; auto.
  destruct R as (l0 & w1 & C & L & -> & O1 & E & H'). cbn. cbn in E. injection E as <-. split; [exact H'|]. split; [|exact Logic.I]. cbn. rewrite O1. exact Hi.
Qed.
Lemma fin_close_lift h f K (p : prog unit) (P : obj -> Prop) : (forall o o' ev, inv K o -> run p o = ROk tt o' ev -> P o') -> fin h f K (rclose S h ;;; lift p) P.
Proof.
  intros H w Hw Hi. pose proof (fin_close h f K (inv K) (fun o Ho => Ho) w Hw Hi) as C. unfold ibind. destruct (rclose S h w) as [u w1| | |]; auto.
  unfold lift. destruct (run p (wO w1)) as [[] o ev| |] eqn:E; auto. exact (H _ _ _ C E).
Qed.

Definition wout_claim (f : ncfile S) (fl : bool) (o' : obj) : Prop := exists ns mn mnq asy (v : vargs S) (o : obj) ev,
  run (init_from_vmec S v) o = ROk tt o' ev /\ v_ns S v = ns /\ integers f "ns" [Some ns] /\
  oI o' I_mnmax = Some mn /\ oI o' I_mnmax_nyq = Some mnq /\ oB o' B_asym = Some asy /\
  (exists z, integers f "lasym__logical__" [Some z] /\ (asy = true <-> z <> 0)) /\
  (forall y k, In (y, k) [("nfp", I_nfp); ("mpol", I_mpol); ("ntor", I_ntor); ("mnmax", I_mnmax); ("mnmax_nyq", I_mnmax_nyq)]%string ->
    exists l, integers f y l /\ (l = [] \/ l = [oI o' k])) /\
  (forall y k, In (y, k) [("xm", N_xm); ("xn", N_xn)]%string -> shaped (oN o' k) mn 1 /\ exists l, integers f y l /\ begins l (oN o' k)) /\
  (forall y k, In (y, k) [("xm_nyq", N_xm_nyq); ("xn_nyq", N_xn_nyq)]%string -> shaped (oN o' k) mnq 1 /\ exists l, integers f y l /\ begins l (oN o' k)) /\
  (exists m n p, znth (adata (oN o' N_xm_nyq)) (mnq - 1) = Some (Some m) /\ znth (adata (oN o' N_xn_nyq)) (mnq - 1) = Some (Some n) /\
     oI o' I_nfp = Some p /\ p <> 0 /\ oI o' I_mpol_nyq = Some m /\ oI o' I_ntor_nyq = Some (Z.quot n p)) /\
  (shaped (v_iotas S v) ns 1 /\ exists l, numbers f "iotas" l /\ begins l (v_iotas S v)) /\
  (forall y g, In (y, g) [("rmnc", v_rmnc S); ("zmns", v_zmns S); ("lmns", v_lmns S)]%string -> shaped (g v) mn ns /\ exists l, numbers f y l /\ begins l (g v)) /\
  (forall y g, In (y, g) [("bmnc", v_bmnc S); ("bsubumnc", v_bsubumnc S); ("bsubvmnc", v_bsubvmnc S)]%string ->
    shaped (g v) mnq ns /\ exists l, numbers f y l /\ begins l (g v)) /\
  (asy = true ->
   (forall y g, In (y, g) [("rmns", v_rmns S); ("zmnc", v_zmnc S); ("lmnc", v_lmnc S)]%string -> shaped (g v) mn ns /\ exists l, numbers f y l /\ begins l (g v)) /\
   (forall y g, In (y, g) [("bmns", v_bmns S); ("bsubumns", v_bsubumns S); ("bsubvmns", v_bsubvmns S)]%string ->
    shaped (g v) mnq ns /\ exists l, numbers f y l /\ begins l (g v))) /\
  (fl = true -> forall y g, In (y, g) [("chi", v_chi S); ("phipf", v_phip S); ("pres", v_pres S); ("phi", v_phi S)]%string ->
    shaped (g v) ns 1 /\ exists l, numbers f y l /\ begins l (g v)) /\
  (fl = false -> forall g, In g [v_chi S; v_phip S; v_pres S; v_phi S] -> shaped (g v) 0 1).

Ltac rule2 := lazymatch goal with
  | |- go _ _ _ (get_flt _ _ _ _) _ _ => apply go_get_flt
  | |- go _ _ _ (get_mat _ _ _ _ _) _ _ => apply go_get_mat
  | |- go _ _ _ (get_vec _ _ _ _) _ _ => apply go_get_vec
  | |- go _ _ _ (lift (getn _ _)) _ _ => apply go_getn
  | |- go _ _ _ (lift (idiv _ _)) _ _ => apply go_idiv
  | _ => rule
  end.
Ltac f2 := eapply fin_bind; [rule2|let H := fresh in intros ? H; cbn beta in H |- *].
Ltac r2 := eapply go_bind; [rule2|let H := fresh in intros ? H; cbn beta in H |- *].
Ltac out := let N := fresh in intros N; repeat destruct N as [N|N]; try discriminate N; contradiction.
Definition outI := [I_nfp; I_mpol; I_ntor; I_mnmax; I_mnmax_nyq; I_mpol_nyq; I_ntor_nyq].
Definition outN := [N_xm; N_xn; N_xm_nyq; N_xn_nyq].
Lemma vmec_spares (v : vargs S) o o' ev : run (init_from_vmec S v) o = ROk tt o' ev ->
  (forall k, In k outI -> oI o' k = oI o k) /\ (forall k, In k outN -> oN o' k = oN o k) /\ oB o' B_asym = oB o B_asym.
Proof.
  intros R. pose proof (spares_run vmec_members _ o (spares_vmec v)) as Sp. rewrite R in Sp. split; [|split].
  - intros k Hk. apply (Sp (MI k)). repeat destruct Hk as [<-|Hk]; try contradiction; out.
  - intros k Hk. apply (Sp (MN k)). repeat destruct Hk as [<-|Hk]; try contradiction; out.
  - apply (Sp (MB B_asym)). out.
Qed.
Theorem wout_stores x fl (w w' : world) : wf_obj (wO w) -> read_wout S x fl w = IOk tt w' ->
  exists f, wFS w x = Some (Whole f) /\ wout_claim f fl (wO w').
Proof.
  intros Wf E. unfold read_wout in E. apply bind_ok in E. destruct E as ([] & w1 & E1 & E).
  assert (Hw1 : wO w1 = wO w /\ wFS w1 = wFS w).
  { unfold chatter, lift in E1. cbn in E1. destruct (oI (wO w) I_verbose) as [v|]; [|discriminate E1]. destruct (0 <? v); injection E1 as <-; auto. }
  destruct Hw1 as (O1 & F1). apply bind_ok in E. destruct E as (h & w2 & E2 & E). apply reader_opens in E2.
  destruct E2 as (f & X2 & H2 & O2 & _). exists f. split; [congruence|].
  assert (Hi : inv start (wO w2)).
  { rewrite O2, O1. destruct Wf as [WN WA]. repeat split; try apply WN; try apply WA. }
  clear E1 O1 F1 X2 O2 Wf w w1. revert w2 H2 Hi E.
  match goal with |- forall w2, _ -> _ -> ?m w2 = _ -> _ => enough (G : fin h f start m (wout_claim f fl)) end.
  { intros w2 H2 Hi E. specialize (G w2 H2 Hi). rewrite E in G. exact G. }
  do 2 f2. eapply fin_bind; [apply go_setb|]. intros ? ?. cbn beta.
  repeat f2.
  match goal with |- fin _ _ ?K _ _ => eapply fin_bind with (K1 := fun _ => K) (Q := fun p => let '(phip0, chi0, pres0, phi0) := p in
    (fl = true -> forall y g, In (y, g) [("chi", chi0); ("phipf", phip0); ("pres", pres0); ("phi", phi0)]%string -> shaped g _ 1 /\ exists l, numbers f y l /\ begins l g) /\
    (fl = false -> forall g, In g [chi0; phip0; pres0; phi0] -> shaped g 0 1)) end.
  { destruct fl.
    - repeat r2. apply go_ret. split; [|discriminate]. intros _ y g Hin. repeat destruct Hin as [Hin|Hin]; try contradiction; injection Hin as <- <-; eassumption.
    - apply go_ret. split; [discriminate|]. intros _ g Hin. repeat destruct Hin as [<-|Hin]; try contradiction; repeat split. }
  intros (((phip0, chi0), pres0), phi0) HF. cbn beta.
  repeat f2.
  match goal with |- context [if ?b then _ else _] => set (asy := b) in * end.
  match goal with |- fin _ _ ?K _ _ => eapply fin_bind with (K1 := fun _ => K) (Q := fun p => let '(rmns0, zmnc0, lmnc0, (bmns0, bsubumns0, bsubvmns0)) := p in
    asy = true ->
    (forall y g, In (y, g) [("rmns", rmns0); ("zmnc", zmnc0); ("lmnc", lmnc0)]%string -> shaped g _ _ /\ exists l, numbers f y l /\ begins l g) /\
    (forall y g, In (y, g) [("bmns", bmns0); ("bsubumns", bsubumns0); ("bsubvmns", bsubvmns0)]%string -> shaped g _ _ /\ exists l, numbers f y l /\ begins l g)) end.
  { destruct asy.
    - repeat r2. apply go_ret. intros _. split; intros y g Hin; repeat destruct Hin as [Hin|Hin]; try contradiction; injection Hin as <- <-; eassumption.
    - apply go_ret. discriminate. }
  intros (((rmns0, zmnc0), lmnc0), ((bmns0, bsubumns0), bsubvmns0)) HS. cbn beta.
  apply fin_close_lift. intros o o' ev (HA & HN & HI & HB) R.
  destruct (vmec_spares _ _ _ _ R) as (SI & SN & SB).
  eexists; eexists; eexists; exists asy; eexists; exists o; exists ev. split; [exact R|]. cbn [v_ns v_iotas v_rmnc v_zmns v_lmns].
  split; [reflexivity|]. split; [match goal with H : forall z, ?x = Some z -> integers _ "ns" _, G : ?x = Some ?a |- _ => exact (H a G) end|].
  split; [rewrite SI by (clear; cbn; tauto); exact (proj2 (HI I_mnmax))|].
  split; [rewrite SI by (clear; cbn; tauto); exact (proj2 (HI I_mnmax_nyq))|].
  split; [rewrite SB; exact (proj2 HB)|].
  split; [flag HB|].
  split. { intros y k E. assert (N : In k outI) by (clear - E; repeat destruct E as [E|E]; try contradiction; injection E as <- <-; cbn; tauto).
    rewrite (SI k N). pose proof (HI k) as G. repeat destruct E as [E|E]; try contradiction; injection E as <- <-; cbn in G; repeat (first [exact G|apply proj1 in G]). }
  split. { intros y k E. assert (N : In k outN) by (clear - E; repeat destruct E as [E|E]; try contradiction; injection E as <- <-; cbn; tauto).
    rewrite (SN k N). pose proof (HN k) as G. repeat destruct E as [E|E]; try contradiction; injection E as <- <-; cbn in G; repeat (first [exact G|apply proj1 in G]). }
  split. { intros y k E. assert (N : In k outN) by (clear - E; repeat destruct E as [E|E]; try contradiction; injection E as <- <-; cbn; tauto).
    rewrite (SN k N). pose proof (HN k) as G. repeat destruct E as [E|E]; try contradiction; injection E as <- <-; cbn in G; repeat (first [exact G|apply proj1 in G]). }
  split. { pose proof (HN N_xm_nyq) as G1. pose proof (HN N_xn_nyq) as G2. pose proof (HI I_mpol_nyq) as G3. pose proof (HI I_ntor_nyq) as G4. pose proof (HI I_nfp) as G5. cbn in G1, G2, G3, G4, G5.
    rewrite !SI by (clear; cbn; tauto). rewrite !SN by (clear; cbn; tauto). eexists; eexists; eexists.
    match goal with H : ?l = _ - 1 |- _ => rewrite <- H end.
    split; [exact (proj2 G1)|]. split; [exact (proj2 G2)|]. split; [exact (proj2 G5)|].
    match goal with H : _ <> 0 /\ _ |- _ => destruct H as (Hp & Hq) end. split; [exact Hp|]. split; [exact G3|]. rewrite <- Hq. exact G4. }
  clear HA HN HI HB SI SN SB R. split; [assumption|].
  split. { intros y g E. repeat destruct E as [E|E]; try contradiction; injection E as <- <-; assumption. }
  split. { intros y g E. repeat destruct E as [E|E]; try contradiction; injection E as <- <-; assumption. }
  split. { intros Ha. destruct (HS Ha) as (S1 & S2). clear - S1 S2. split; intros y g E; repeat destruct E as [E|E]; try contradiction; injection E as <- <-; [apply S1|apply S1|apply S1|apply S2|apply S2|apply S2]; cbn; tauto. }
  destruct HF as (F1 & F2).
  split. { intros Hf y g E. clear - E F1 Hf. repeat destruct E as [E|E]; try contradiction; injection E as <- <-; apply (F1 Hf); cbn; tauto. }
  intros Hf g E. clear - E F2 Hf. repeat destruct E as [<-|E]; try contradiction; apply (F2 Hf); cbn; tauto.
Qed.
End Proof.

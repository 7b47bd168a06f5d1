(** C39 and C45 for any object and any file: which files are open, and what is on the disk, when a call has ended. *)
From Coq Require Import ZArith List String Bool Lia.
From Verif Require Import Scalar Prog Model Vmec Nc NcModel NcSpec NcVoc Py Frame.
Import ListNotations.
Local Open Scope Z_scope.

Section Leak.
Context {S : Scalar}.
Notation obj := (obj S).
Notation world := (world S).
Notation io := (io S).

(** ** Steps that preserve a property of the world *)
Section Inv.
Variable I : world -> Prop.
(** the property does not depend on the object, the failures to come and what was printed *)
Definition about_files : Prop := (forall w o, I w -> I (setO w o)) /\ (forall w q, I w -> I (setQ w q)) /\ (forall w e, I w -> I (addEv w e)).
Hypothesis HI : about_files.
Definition keeps {A} (m : io A) : Prop := forall w, I w ->
  match m w with IOk _ w' => I w' | IThrow _ w' => I w' | IUB _ => True | IDie w' => I w' end.
Lemma kp_bind {A B} (m : io A) (k : A -> io B) : keeps m -> (forall a, keeps (k a)) -> keeps (ibind m k).
Proof using. intros H1 H2 w H. specialize (H1 w H). unfold ibind. destruct (m w); auto. apply H2, H1. Qed.
Lemma kp_ret {A} (a : A) : keeps (iret a).
Proof using. intros w H. exact H. Qed.
Lemma kp_throw {A} m : keeps (@ithrow S A m).
Proof using. intros w H. exact H. Qed.
Lemma kp_ub {A} y : keeps (@iub S A y).
Proof using. intros w H. exact Logic.I. Qed.
Lemma kp_say t z x : keeps (@say S t z x).
Proof using HI. intros w H. destruct HI as (_ & _ & H3). apply H3, H. Qed.
Lemma kp_lift {A} (p : prog S A) : keeps (lift p).
Proof using HI. intros w H. destruct HI as (H1 & H2 & H3). unfold lift. destruct (run p (wO w)); auto. Qed.
Lemma kp_try m : keeps m -> keeps (itry m).
Proof using. intros K w H. specialize (K w H). unfold itry. destruct (m w); auto. Qed.
Lemma kp_obj : keeps (theobj S).
Proof using. intros w H. exact H. Qed.
Lemma kp_setobj o : keeps (setobj S o).
Proof using HI. intros w H. destruct HI as (H1 & H2 & H3). apply H1, H. Qed.
Lemma kp_call {A} (f : world -> ires S (code A)) : keeps f -> keeps (Nc.call f).
Proof using HI.
  intros K w H. destruct HI as (H1 & H2 & H3). unfold Nc.call. destruct (wQ w) as [|[| |] q]; auto; [exact (K w H)|exact (K _ (H2 _ q H))].
Qed.
Lemma kp_inq h : keeps (@nc_inq S h).
Proof using HI. apply kp_call. intros w H. exact H. Qed.
Lemma kp_enddef h : keeps (@nc_enddef S h).
Proof using HI. apply kp_call. intros w H. exact H. Qed.
Lemma kp_inq_dimid h x : keeps (@nc_inq_dimid S h x).
Proof using HI. apply kp_call. intros w H. destruct (contents w h) as [f|]; [destruct (lookup (nf_dims f) x)|]; exact H. Qed.
Lemma kp_inq_dimlen h x : keeps (@nc_inq_dimlen S h x).
Proof using HI. apply kp_call. intros w H. destruct (contents w h) as [f|]; [destruct (lookup (nf_dims f) x)|]; exact H. Qed.
Lemma kp_inq_varid h x : keeps (@nc_inq_varid S h x).
Proof using HI. apply kp_call. intros w H. destruct (contents w h) as [f|]; [destruct (find_var f x)|]; exact H. Qed.
Lemma kp_get {T} conv h x buf : keeps (@nc_get S T conv h x buf).
Proof using HI.
  apply kp_call. intros w H. destruct (contents w h) as [f|]; [|exact H]. destruct (find_var f x) as [v|]; [|exact H].
  destruct (conv (vr_val v)) as [[l r]|]; [|exact H]. destruct (_ <? _)%nat; [exact Logic.I|exact H].
Qed.
Lemma kp_rerr {A} d m : keeps (@rerr S A d m).
Proof using HI. apply kp_bind; [apply kp_say|intros; apply kp_throw]. Qed.
Lemma kp_rchk {A} d (c : code A) : keeps (rchk S d c).
Proof using HI. destruct c; [apply kp_rerr|apply kp_ret]. Qed.
Lemma kp_getdim h x : keeps (getdim S h x).
Proof using HI.
  apply kp_bind; [apply kp_inq_dimid|]. intros c. apply kp_bind; [apply kp_rchk|]. intros _.
  apply kp_bind; [apply kp_inq_dimlen|]. intros c'. apply kp_rchk.
Qed.
Lemma kp_rget {T} conv h x (buf : list (option T)) store : (forall l, keeps (store l)) -> keeps (rget S conv h x buf store).
Proof using HI.
  intros H. unfold rget. apply kp_bind; [apply kp_inq_varid|]. intros c. apply kp_bind; [apply kp_rchk|]. intros _.
  apply kp_bind; [destruct (_ =? _)%nat; [apply kp_ub|apply kp_ret]|]. intros _. apply kp_bind; [apply kp_get|]. intros c'.
  apply kp_bind; [apply kp_rchk|]. intros [e l]. apply kp_bind; [apply H|]. intros _. destruct e; [apply kp_rerr|apply kp_ret].
Qed.
Lemma kp_get_int h x f : keeps (get_int S h x f).
Proof using HI.
  apply kp_bind; [apply kp_obj|]. intros o. apply kp_bind; [|intros; apply kp_ret]. apply kp_rget. intros l.
  apply kp_bind; [apply kp_obj|intros; apply kp_setobj].
Qed.
Lemma kp_get_flt h x f : keeps (get_flt S h x f).
Proof using HI.
  apply kp_bind; [apply kp_obj|]. intros o. apply kp_bind; [|intros; apply kp_ret]. apply kp_rget. intros l.
  apply kp_bind; [apply kp_obj|intros; apply kp_setobj].
Qed.
Lemma kp_get_ints h x f : keeps (get_ints S h x f).
Proof using HI.
  apply kp_bind; [apply kp_obj|]. intros o. apply kp_bind; [|intros; apply kp_ret]. apply kp_rget. intros l.
  apply kp_bind; [apply kp_obj|intros; apply kp_setobj].
Qed.
Lemma kp_get_arr h x f : keeps (get_arr S h x f).
Proof using HI.
  apply kp_bind; [apply kp_obj|]. intros o. apply kp_bind; [|intros; apply kp_ret]. apply kp_rget. intros l.
  apply kp_bind; [apply kp_obj|intros; apply kp_setobj].
Qed.
Lemma kp_get_local_int h x : keeps (get_local_int S h x).
Proof using HI. apply kp_bind; [|intros; apply kp_ret]. apply kp_rget. intros l. apply kp_ret. Qed.
Lemma kp_get_local h x a : keeps (get_local S h x a).
Proof using HI. apply kp_bind; [|intros; apply kp_ret]. apply kp_rget. intros l. apply kp_ret. Qed.
Lemma kp_val {T} (x : option T) : keeps (val S x).
Proof using. destruct x; [apply kp_ret|apply kp_ub]. Qed.
Lemma kp_wchk {A} (c : code A) : keeps (wchk S c).
Proof using. destruct c; [apply kp_throw|apply kp_ret]. Qed.

(** ** Programs that keep the property until they close the file, and then establish another one; [P] are the exceptions after that *)
Variable J : world -> Prop.
Variable P : string -> Prop.
Definition closes {A} (m : io A) : Prop := forall w, I w ->
  match m w with
  | IOk _ w' => J w'
  | IThrow e w' => I w' \/ J w' /\ P e
  | IUB _ => True
  | IDie w' => I w'
  end.
Lemma cl_bind {A B} (m : io A) (k : A -> io B) : keeps m -> (forall a, closes (k a)) -> closes (ibind m k).
Proof using. intros H1 H2 w H. specialize (H1 w H). unfold ibind. destruct (m w); auto. apply H2, H1. Qed.
End Inv.

Ltac kp1 HI := lazymatch goal with
  | |- closes _ _ _ (ibind (rclose _ _) _) => fail
  | |- closes _ _ _ (ibind _ _) => apply cl_bind; [|intros ?]
  | |- keeps _ (ibind _ _) => apply kp_bind; [|intros ?]
  | |- keeps _ (iret _) => apply kp_ret
  | |- keeps _ (iub _) => apply kp_ub
  | |- keeps _ (ithrow _) => apply kp_throw
  | |- keeps _ (lift _) => apply (kp_lift _ HI)
  | |- keeps _ (itry _) => apply kp_try
  | |- keeps _ (theobj _) => apply kp_obj
  | |- keeps _ (chatter _ _) => apply (kp_lift _ HI)
  | |- keeps _ (getdim _ _ _) => apply (kp_getdim _ HI)
  | |- keeps _ (get_int _ _ _ _) => apply (kp_get_int _ HI)
  | |- keeps _ (get_flt _ _ _ _) => apply (kp_get_flt _ HI)
  | |- keeps _ (get_ints _ _ _ _) => apply (kp_get_ints _ HI)
  | |- keeps _ (get_arr _ _ _ _) => apply (kp_get_arr _ HI)
  | |- keeps _ (get_local_int _ _ _) => apply (kp_get_local_int _ HI)
  | |- keeps _ (get_local _ _ _ _) => apply (kp_get_local _ HI)
  | |- keeps _ (val _ _) => apply kp_val
  | |- keeps _ (new_vec _ _) => apply (kp_lift _ HI)
  | |- keeps _ (new_mat _ _ _) => apply (kp_lift _ HI)
  | |- keeps _ (zero_vec _ _) => apply (kp_lift _ HI)
  | |- keeps _ (get_vec _ _ _ _) => unfold get_vec
  | |- keeps _ (get_mat _ _ _ _ _) => unfold get_mat
  | |- keeps _ (resize_ints _ _ _) => unfold resize_ints
  | |- keeps _ (resize_arr _ _ _ _) => apply (kp_lift _ HI)
  | |- keeps _ (if ?c then _ else _) => destruct c
  | |- keeps _ (match ?x with pair _ _ => _ end) => destruct x
  | |- closes _ _ _ (match ?x with pair _ _ => _ end) => destruct x
  | |- closes _ _ _ (let _ := _ in _) => cbv zeta
  end.

(** ** Reading *)
Definition st (l : list (Z * hnd S)) (fs : string -> option (disk S)) (n : Z) (w : world) : Prop := wOpen w = l /\ wFS w = fs /\ wNext w = n.
Lemma st_files l fs n : about_files (st l fs n).
Proof. repeat split; apply H. Qed.
Lemma find_head (h : Z) (x : hnd S) l : find (fun p => fst p =? h) ((h, x) :: l) = Some (h, x).
Proof. cbn. now rewrite Z.eqb_refl. Qed.
Lemma filter_fresh (h : Z) (l : list (Z * hnd S)) : Forall (fun p => fst p <> h) l -> filter (fun p => negb (fst p =? h)) l = l.
Proof.
  induction 1 as [|p l Hp _ IH]; [reflexivity|]. cbn. destruct (fst p =? h) eqn:E; [now apply Z.eqb_eq in E|]. cbn. now f_equal.
Qed.
Lemma rclose_closes h f l fs n P : Forall (fun p => fst p <> h) l -> closes (st ((h, Reading f) :: l) fs n) (st l fs n) P (rclose S h).
Proof.
  intros Hl w (E1 & E2). unfold rclose, ibind, nc_close, Nc.call.
  assert (G : forall v, wOpen v = (h, Reading f) :: l -> wFS v = fs /\ wNext v = n -> st l fs n (drop_handle v h) /\ handle v h = Some (Reading f)).
  { intros v F1 F2. unfold drop_handle, handle. rewrite F1, find_head. repeat split; try apply F2. cbn. rewrite Z.eqb_refl. cbn. now apply filter_fresh. }
  destruct (wQ w) as [|[|e|] q].
  - destruct (G w E1 E2) as (G1 & ->). cbn. exact G1.
  - destruct (G (setQ w q) E1 E2) as (G1 & ->). cbn. exact G1.
  - cbn. left. split; [exact E1|exact E2].
  - split; [exact E1|exact E2].
Qed.
(** The environment lets the next call of the library work *)
Definition next_works (w : world) : Prop := match wQ w with Fail _ :: _ | Die :: _ => False | _ => True end.
(** [nc_open] of [x] succeeds *)
Definition can_open (w : world) (x : string) (f : ncfile S) : Prop := wFS w x = Some (Whole f) /\ next_works w.
Lemma reader_ends x (w : world) :
  match reader S x w with
  | IOk h w' => h = wNext w /\ exists f, can_open w x f /\ st ((h, Reading f) :: wOpen w) (wFS w) (wNext w + 1) w'
  | IThrow _ w' => (forall f, ~ can_open w x f) /\ st (wOpen w) (wFS w) (wNext w) w' \/
      exists f, can_open w x f /\ st ((wNext w, Reading f) :: wOpen w) (wFS w) (wNext w + 1) w'
  | IUB _ => True
  | IDie w' => wFS w' = wFS w
  end.
Proof.
  unfold reader, nc_open, can_open, next_works. unfold ibind at 1. unfold Nc.call at 1.
  assert (B : forall v (h : Z) l fs n, st l fs n v ->
    match (ibind (nc_inq h) (fun c => ibind (rchk S x c) (fun _ => iret h))) v with
    | IOk k v' => k = h /\ st l fs n v' | IThrow _ v' => st l fs n v' | IUB _ => True | IDie v' => st l fs n v' end).
  { intros v h l fs n H. unfold ibind at 1, nc_inq, Nc.call. destruct (wQ v) as [|[|e|] q]; cbn; auto. }
  destruct (wQ w) as [|[|e|] q]; cbn [wFS setQ].
  - destruct (wFS w x) as [[f|]|] eqn:E; [| exact Logic.I |].
    + unfold new_handle. unfold ibind at 1. cbn [rchk iret].
      specialize (B (mkW (wO w) (wFS w) ((wNext w, Reading f) :: wOpen w) (wNext w + 1) (wQ w) (wEv w)) (wNext w) _ _ _ (conj eq_refl (conj eq_refl eq_refl))).
      cbn [wOpen wFS wNext] in B. destruct (ibind _ _ _) as [h v|e v|y|v]; [|right|exact Logic.I|exact (proj1 (proj2 B))].
      * destruct B as (-> & B). split; [reflexivity|]. exists f. auto.
      * exists f. auto.
    + cbn. left. split; [|repeat split; reflexivity]. intros f (A & _). discriminate A.
  - destruct (wFS w x) as [[f|]|] eqn:E; [| exact Logic.I |].
    + unfold new_handle. unfold ibind at 1. cbn [rchk iret setQ wO wFS wOpen wNext wQ wEv].
      specialize (B (mkW (wO w) (wFS w) ((wNext w, Reading f) :: wOpen w) (wNext w + 1) q (wEv w)) (wNext w) _ _ _ (conj eq_refl (conj eq_refl eq_refl))).
      cbn [wOpen wFS wNext] in B. destruct (ibind _ _ _) as [h v|e v|y|v]; [|right|exact Logic.I|exact (proj1 (proj2 B))].
      * destruct B as (-> & B). split; [reflexivity|]. exists f. auto.
      * exists f. auto.
    + cbn. left. split; [|repeat split; reflexivity]. intros f (A & _). discriminate A.
  - cbn. left. split; [|repeat split; reflexivity]. intros f (_ & A). exact A.
  - reflexivity.
Qed.

(** How a reading ends; [P] are the exceptions after the file was closed *)
Definition reading_ends {A} (P : string -> Prop) x (w : world) (r : ires S A) : Prop :=
  match r with
  | IOk _ w' => wFS w' = wFS w /\ wOpen w' = wOpen w /\ open_ok w'
  | IThrow e w' => wFS w' = wFS w /\ open_ok w' /\
      ((forall f, ~ can_open w x f) /\ wOpen w' = wOpen w \/
       (exists f, can_open w x f /\ wOpen w' = (wNext w, Reading f) :: wOpen w) \/
       P e /\ wOpen w' = wOpen w)
  | IUB _ => True
  | IDie w' => wFS w' = wFS w
  end.
Lemma chatter_ends p (w : world) : match chatter S p w with
  | IOk _ w' | IThrow _ w' => wOpen w' = wOpen w /\ wFS w' = wFS w /\ wNext w' = wNext w /\ wQ w' = wQ w
  | IUB _ => True | IDie _ => False end.
Proof. unfold chatter, lift. destruct (run _ _); cbn; auto. Qed.
Lemma chatter_out t (w : world) e v : chatter S (out t [] []) w <> IThrow e v.
Proof. unfold chatter, lift, geti, out. cbn. destruct (oI (wO w) I_verbose) as [z|]; [|discriminate]. cbn. destruct (0 <? z); discriminate. Qed.
Lemma open_ok_more (w w' : world) n : open_ok w -> wOpen w' = wOpen w -> wNext w' = n -> wNext w <= n -> open_ok w'.
Proof. unfold open_ok. intros O -> -> H. eapply Forall_impl; [|exact O]. cbn. intros a Ha. lia. Qed.
Lemma open_ok_new (w w' : world) x : open_ok w -> wOpen w' = (wNext w, x) :: wOpen w -> wNext w' = wNext w + 1 -> open_ok w'.
Proof. unfold open_ok. intros O -> ->. constructor; [cbn; lia|]. eapply Forall_impl; [|exact O]. cbn. intros a Ha. lia. Qed.
Lemma fresh_next (w v : world) : open_ok w -> wOpen v = wOpen w -> wNext v = wNext w -> Forall (fun p => fst p <> wNext v) (wOpen v).
Proof. unfold open_ok. intros O -> ->. eapply Forall_impl; [|exact O]. cbn. intros a Ha. lia. Qed.
Lemma read_ends {A} t x (body : Z -> io A) P (w : world) : open_ok w ->
  (forall h f l fs n, Forall (fun p => fst p <> h) l -> closes (st ((h, Reading f) :: l) fs n) (st l fs n) P (body h)) ->
  reading_ends P x w (ibind (chatter S (out t [] [])) (fun _ => ibind (reader S x) body) w).
Proof.
  intros O H. unfold ibind at 1. pose proof (chatter_ends (out t [] []) w) as C. pose proof (chatter_out t w) as NT.
  destruct (chatter S (out t [] []) w) as [[] v|e v|y|v]; [|now destruct (NT e v)|exact Logic.I|destruct C].
  destruct C as (C1 & C2 & C3 & C4). unfold ibind. pose proof (reader_ends x v) as R.
  assert (CO : forall f, can_open v x f <-> can_open w x f) by (intros f; unfold can_open, next_works; rewrite C2, C4; tauto).
  destruct (reader S x v) as [h u|e u|y|u].
  - destruct R as (-> & f & R1 & R2).
    specialize (H (wNext v) f (wOpen v) (wFS v) (wNext v + 1) (fresh_next w v O C1 C3) u R2). destruct (body (wNext v) u) as [a z|e z|y|z]; cbn.
    + destruct H as (H1 & H2 & H3). repeat split; try congruence. eapply open_ok_more; [exact O|congruence|exact H3|lia].
    + destruct H as [(H1 & H2 & H4)|((H1 & H2 & H4) & H3)].
      * split; [congruence|]. split; [eapply open_ok_new; [exact O|rewrite <- C1, <- C3; exact H1|congruence]|].
        right. left. exists f. split; [now apply CO|congruence].
      * split; [congruence|]. split; [eapply open_ok_more; [exact O|congruence|exact H4|lia]|]. right. right. split; [exact H3|congruence].
    + exact Logic.I.
    + destruct H as (_ & H2 & _). congruence.
  - cbn. destruct R as [(R1 & R2 & R3 & R4)|(f & R1 & R2 & R3 & R4)]; (split; [congruence|]).
    + split; [eapply open_ok_more; [exact O|congruence|exact R4|lia]|]. left. split; [|congruence]. intros f F. apply (R1 f). now apply CO.
    + split; [eapply open_ok_new; [exact O|rewrite <- C1, <- C3; exact R2|congruence]|]. right. left. exists f. split; [now apply CO|congruence].
  - exact Logic.I.
  - cbn. congruence.
Qed.
Theorem boozmn_ends x (w : world) : open_ok w -> reading_ends (fun _ => False) x w (read_boozmn S x w).
Proof.
  intros O. unfold read_boozmn. apply read_ends; [exact O|]. intros h f l fs n Hl.
  assert (HI := st_files ((h, Reading f) :: l) fs n). repeat kp1 HI. now apply rclose_closes.
Qed.
Theorem wout_ends x fl (w : world) : open_ok w ->
  reading_ends (fun e => exists o v o' ev, run (init_from_vmec S v) o = RThrow e o' ev) x w (read_wout S x fl w).
Proof.
  intros O. unfold read_wout. apply read_ends; [exact O|]. intros h f l fs n Hl.
  assert (HI := st_files ((h, Reading f) :: l) fs n). repeat kp1 HI.
  intros v Hv. pose proof (rclose_closes h f l fs n (fun _ => False) Hl v Hv) as R. unfold ibind. destruct (rclose S h v) as [[] u|e u|y|u].
  - unfold lift. destruct (run _ (wO u)) as [b o' ev|e o' ev|y] eqn:E; [exact R| |exact Logic.I].
    right. split; [exact R|]. do 4 eexists. exact E.
  - destruct R as [R|(_ & [])]. now left.
  - exact Logic.I.
  - exact R.
Qed.

(** ** Writing *)
Lemma map_fresh h (y : hnd S) l : Forall (fun p => fst p <> h) l -> map (fun p => if fst p =? h then (h, y) else p) l = l.
Proof.
  induction 1 as [|p m Hp _ IH]; [reflexivity|]. cbn. destruct (fst p =? h) eqn:E; [now apply Z.eqb_eq in E|]. rewrite IH. reflexivity.
Qed.
Section Write.
Variables (h : Z) (x : string) (l : list (Z * hnd S)) (fs : string -> option (disk S)) (n : Z).
Definition wst (w : world) : Prop := (exists f, wOpen w = (h, Writing x f) :: l) /\ wFS w = fs /\ wNext w = n.
Lemma wst_files : about_files wst.
Proof. repeat split; apply H. Qed.
Hypothesis Hl : Forall (fun p => fst p <> h) l.
Lemma wst_handle w : wst w -> exists f, handle w h = Some (Writing x f).
Proof using. intros ((f & E) & _). exists f. unfold handle. now rewrite E, find_head. Qed.
Lemma wst_put w g : wst w -> wst (put_handle w h (Writing x g)).
Proof using Hl. intros ((f & E) & E2). split; [|exact E2]. exists g. cbn. rewrite E. cbn. rewrite Z.eqb_refl. now rewrite (map_fresh h _ l Hl). Qed.
Lemma kw_define {A} (f : ncfile S -> code (A * ncfile S)) : keeps wst (define h f).
Proof using Hl.
  apply (kp_call _ wst_files). intros w H. destruct (wst_handle w H) as (g & ->). destruct (f g) as [m|[a g']]; [exact H|]. now apply wst_put.
Qed.
Lemma kw_put_var y get : keeps wst (@nc_put_var S h y get).
Proof using Hl.
  apply (kp_call _ wst_files). intros w H. destruct (wst_handle w H) as (g & ->). destruct (find_var g y) as [v|]; [|exact H].
  destruct (get w (vlen g (vr_dims v))); [|exact Logic.I]. now apply wst_put.
Qed.
Variable P : string -> Prop.
Definition wdone (w : world) : Prop := wOpen w = l /\ wNext w = n /\ exists f, wFS w = fun y => if String.eqb y x then Some (Whole f) else fs y.
Lemma close_closes : closes wst wdone P (ibind (@nc_close S h) (fun c => wchk S c)).
Proof using Hl.
  intros w H. unfold ibind, nc_close, Nc.call.
  assert (G : forall v, wst v -> exists f, handle v h = Some (Writing x f) /\ wdone (setFS (drop_handle v h) x (Whole f))).
  { intros v ((f & F1) & F2). exists f. unfold handle. rewrite F1, find_head. repeat split; [|apply F2|exists f; cbn; now rewrite (proj1 F2)].
    cbn. rewrite F1. cbn. rewrite Z.eqb_refl. cbn. now apply filter_fresh. }
  destruct (wQ w) as [|[|e|] q].
  - destruct (G w H) as (f & -> & G1). cbn. exact G1.
  - destruct (G (setQ w q)) as (f & -> & G1); [now apply wst_files|]. cbn. exact G1.
  - cbn. left. now apply (proj1 (proj2 wst_files)).
  - now apply (proj1 (proj2 wst_files)).
Qed.
(** the writer keeps its number *)
Definition yields {A} (R : A -> Prop) (m : io A) : Prop := forall w a w', m w = IOk a w' -> R a.
Definition mine (nc : writer) : Prop := wr_id nc = h.
Lemma cl_bind_mine {A} (m : io writer) (k : writer -> io A) : keeps wst m -> yields mine m -> (forall nc, mine nc -> closes wst wdone P (k nc)) ->
  closes wst wdone P (ibind m k).
Proof using.
  intros H1 H2 H3 w H. specialize (H1 w H). specialize (H2 w). unfold ibind. destruct (m w); auto. apply H3; [eapply H2; reflexivity|exact H1].
Qed.
Lemma cl_bind_pair {A B} (m : io (writer * B)) (k : writer * B -> io A) : keeps wst m -> yields (fun p => mine (fst p)) m ->
  (forall nc b, mine nc -> closes wst wdone P (k (nc, b))) -> closes wst wdone P (ibind m k).
Proof using.
  intros H1 H2 H3 w H. specialize (H1 w H). specialize (H2 w). unfold ibind. destruct (m w) as [[nc b] w'|e w'|y|w']; auto.
  apply H3; [exact (H2 _ _ eq_refl)|exact H1].
Qed.
Lemma kp_bind_mine {A} (m : io writer) (k : writer -> io A) : keeps wst m -> yields mine m -> (forall nc, mine nc -> keeps wst (k nc)) -> keeps wst (ibind m k).
Proof using.
  intros H1 H2 H3 w H. specialize (H1 w H). specialize (H2 w). unfold ibind. destruct (m w); auto. apply H3; [eapply H2; reflexivity|exact H1].
Qed.
Lemma yl_bind {A B} (R : B -> Prop) (m : io A) (k : A -> io B) : (forall a, yields R (k a)) -> yields R (ibind m k).
Proof using. intros H w a w' E. unfold ibind in E. destruct (m w) as [b u|e u|y|u]; try discriminate. eapply H, E. Qed.
Lemma yl_bind_mine {B} (R : B -> Prop) (m : io writer) (k : writer -> io B) : yields mine m -> (forall nc, mine nc -> yields R (k nc)) -> yields R (ibind m k).
Proof using. intros H1 H w a w' E. unfold ibind in E. destruct (m w) as [b u|e u|y|u] eqn:G; try discriminate. eapply H, E. eapply H1, G. Qed.
Lemma yl_ret {A} (R : A -> Prop) a : R a -> yields R (@iret S A a).
Proof using. intros H w b w' E. inversion E; subst. exact H. Qed.
Lemma att_keeps nc y a u : mine nc -> keeps wst (add_attribute S nc y a u).
Proof using Hl.
  intros M. unfold add_attribute, nc_put_att_text. rewrite M. apply kp_bind; [destruct (_ <? _)%nat|intros _; destruct (_ <? _)%nat]; try apply kp_ret;
    (apply kp_bind; [apply kw_define|intros; apply kp_wchk]).
Qed.
Lemma put_keeps nc ds y ty p a u : mine nc -> keeps wst (put S nc ds y ty p a u).
Proof using Hl.
  intros M. unfold put, nc_def_var. rewrite M. apply kp_bind; [apply kw_define|]. intros c. apply kp_bind; [apply kp_wchk|]. intros _. apply kp_bind.
  - destruct p as [f|f|f k|f k|z|z|z k|z k|z k]; try apply kp_ret; destruct k; try apply kp_ret; apply kp_ub.
  - intros _. apply kp_bind; [now apply att_keeps|intros; apply kp_ret].
Qed.
Lemma put_mine nc ds y ty p a u : mine nc -> yields mine (put S nc ds y ty p a u).
Proof using. intros M. unfold put. repeat (apply yl_bind; intros ?). apply yl_ret. exact M. Qed.
Lemma put_string_keeps nc y nm s a : mine nc -> keeps wst (put_string S nc y nm s a).
Proof using Hl.
  intros M. unfold put_string, nc_def_var, nc_def_dim. cbv zeta. rewrite M. apply kp_bind; [apply (kp_inq_dimid _ wst_files)|]. intros c. apply kp_bind.
  - destruct c; [|apply kp_ret]. apply kp_bind; [apply kw_define|intros; apply kp_wchk].
  - intros _. apply kp_bind; [apply kw_define|]. intros c'. apply kp_bind; [apply kp_wchk|]. intros _.
    apply kp_bind; [now apply att_keeps|intros; apply kp_ret].
Qed.
Lemma put_string_mine nc y nm s a : mine nc -> yields mine (put_string S nc y nm s a).
Proof using. intros M. unfold put_string. cbv zeta. repeat (apply yl_bind; intros ?). apply yl_ret. exact M. Qed.
Lemma put_ints_keeps nc ds y f a u : mine nc -> keeps wst (put_ints S nc ds y f a u).
Proof using Hl. intros M. apply kp_bind; [apply kp_obj|intros; now apply put_keeps]. Qed.
Lemma put_ints_mine nc ds y f a u : mine nc -> yields mine (put_ints S nc ds y f a u).
Proof using. intros M. apply yl_bind. intros. now apply put_mine. Qed.
Lemma put_arr_keeps nc ds y f a u : mine nc -> keeps wst (put_arr S nc ds y f a u).
Proof using Hl. intros M. apply kp_bind; [apply kp_obj|intros; now apply put_keeps]. Qed.
Lemma put_arr_mine nc ds y f a u : mine nc -> yields mine (put_arr S nc ds y f a u).
Proof using. intros M. apply yl_bind. intros. now apply put_mine. Qed.
Lemma put_mat_keeps nc y f a u : mine nc -> keeps wst (put_mat S nc y f a u).
Proof using Hl.
  intros M. apply kp_bind; [apply kp_obj|intros o]. apply kp_bind; [destruct (inside _ _ _ _); [apply kp_ret|apply kp_ub]|]. intros. now apply put_keeps.
Qed.
Lemma put_mat_mine nc y f a u : mine nc -> yields mine (put_mat S nc y f a u).
Proof using. intros M. apply yl_bind. intros. apply yl_bind. intros. now apply put_mine. Qed.
Lemma put_local_mat_keeps nc y m a u : mine nc -> keeps wst (put_local_mat S nc y m a u).
Proof using Hl. intros M. apply kp_bind; [destruct (inside _ _ _ _); [apply kp_ret|apply kp_ub]|]. intros. now apply put_keeps. Qed.
Lemma put_local_mat_mine nc y m a u : mine nc -> yields mine (put_local_mat S nc y m a u).
Proof using. intros M. apply yl_bind. intros. now apply put_mine. Qed.
Lemma wdim_keeps nc y k : mine nc -> keeps wst (wdim S nc y k).
Proof using Hl. intros M. unfold wdim, nc_def_dim. rewrite M. apply kp_bind; [apply kw_define|intros; apply kp_wchk]. Qed.
Lemma wac_closes nc env : mine nc -> closes wst wdone P (write_and_close S nc env).
Proof using Hl.
  intros M. unfold write_and_close. rewrite M. apply cl_bind; [apply (kp_enddef _ wst_files)|]. intros c. apply cl_bind; [apply kp_wchk|]. intros _.
  apply cl_bind; [|intros _; apply close_closes].
  induction (wr_regs nc) as [|(y, p) m IH]; cbn [put_all]; [apply kp_ret|].
  apply kp_bind; [apply kw_put_var|]. intros c'. apply kp_bind; [apply kp_wchk|intros _; exact IH].
Qed.
End Write.
Ltac kw1 HI Hl := lazymatch goal with
  | |- closes _ _ _ (ibind (put _ _ _ _ _ _ _ _) _) => apply cl_bind_mine; [now apply put_keeps|now apply put_mine|intros ? ?]
  | |- closes _ _ _ (ibind (put_string _ _ _ _ _ _) _) => apply cl_bind_mine; [now apply put_string_keeps|now apply put_string_mine|intros ? ?]
  | |- closes _ _ _ (ibind (put_ints _ _ _ _ _ _ _) _) => apply cl_bind_mine; [now apply put_ints_keeps|now apply put_ints_mine|intros ? ?]
  | |- closes _ _ _ (ibind (put_mat _ _ _ _ _ _) _) => apply cl_bind_mine; [now apply put_mat_keeps|now apply put_mat_mine|intros ? ?]
  | |- closes _ _ _ (ibind (put_local_mat _ _ _ _ _ _) _) => apply cl_bind_mine; [now apply put_local_mat_keeps|now apply put_local_mat_mine|intros ? ?]
  | |- keeps _ (ibind (put _ _ _ _ _ _ _ _) _) => apply kp_bind_mine; [now apply put_keeps|now apply put_mine|intros ? ?]
  | |- keeps _ (ibind (put_arr _ _ _ _ _ _ _) _) => apply kp_bind_mine; [now apply put_arr_keeps|now apply put_arr_mine|intros ? ?]
  | |- keeps _ (ibind (put_mat _ _ _ _ _ _) _) => apply kp_bind_mine; [now apply put_mat_keeps|now apply put_mat_mine|intros ? ?]
  | |- keeps _ (ibind (put_local_mat _ _ _ _ _ _) _) => apply kp_bind_mine; [now apply put_local_mat_keeps|now apply put_local_mat_mine|intros ? ?]
  | |- yields _ (ibind (put _ _ _ _ _ _ _ _) _) => eapply yl_bind_mine; [eapply put_mine; eassumption|intros ? ?]
  | |- yields _ (ibind (put_arr _ _ _ _ _ _ _) _) => eapply yl_bind_mine; [eapply put_arr_mine; eassumption|intros ? ?]
  | |- yields _ (ibind (put_mat _ _ _ _ _ _) _) => eapply yl_bind_mine; [eapply put_mat_mine; eassumption|intros ? ?]
  | |- yields _ (ibind (put_local_mat _ _ _ _ _ _) _) => eapply yl_bind_mine; [eapply put_local_mat_mine; eassumption|intros ? ?]
  | |- yields _ (ibind _ _) => apply yl_bind; intros ?
  | |- yields _ (iret _) => apply yl_ret; assumption
  | |- yields _ (if ?c then _ else _) => destruct c
  | |- closes _ _ _ (ibind (if _ then _ else _) _) => apply cl_bind_pair; [| |intros ? ? ?]
  | |- keeps _ (wdim _ _ _ _) => now apply wdim_keeps
  | |- keeps _ (prepend_zero _ _ _) => unfold prepend_zero
  | |- closes _ _ _ (write_and_close _ _ _) => now apply wac_closes
  | |- _ => kp1 HI
  end.
(** How a writing ends *)
Definition with_file (fs : string -> option (disk S)) (x : string) (d : disk S) : string -> option (disk S) :=
  fun y => if String.eqb y x then Some d else fs y.
Definition writing_ends {A} x (w : world) (r : ires S A) : Prop :=
  match r with
  | IOk _ w' => (exists f, forall y, wFS w' y = with_file (wFS w) x (Whole f) y) /\ wOpen w' = wOpen w /\ open_ok w'
  | IThrow _ w' => open_ok w' /\
      (~ next_works w /\ wFS w' = wFS w /\ wOpen w' = wOpen w \/
       next_works w /\ wFS w' = with_file (wFS w) x Torn /\ exists f, wOpen w' = (wNext w, Writing x f) :: wOpen w)
  | IUB _ => True
  | IDie w' => ~ next_works w /\ wFS w' = wFS w \/ next_works w /\ wFS w' = with_file (wFS w) x Torn
  end.
Lemma write_body_ends {A} t x (body : writer -> io A) (w : world) : open_ok w ->
  (forall h l fs n, Forall (fun p => fst p <> h) l -> forall nc, mine h nc -> closes (wst h x l fs n) (wdone x l fs n) (fun _ => False) (body nc)) ->
  writing_ends x w (ibind (chatter S (out t [] [])) (fun _ => ibind (new_writer S x) body) w).
Proof.
  intros O H. unfold ibind at 1. pose proof (chatter_ends (out t [] []) w) as C. pose proof (chatter_out t w) as NT.
  destruct (chatter S (out t [] []) w) as [[] v|e v|y|v]; [|now destruct (NT e v)|exact Logic.I|destruct C].
  destruct C as (C1 & C2 & C3 & C4). unfold writing_ends, next_works. rewrite <- C4. unfold new_writer, nc_create, Nc.call, new_handle.
  assert (G : forall q, let u := mkW (wO v) (wFS (setFS v x Torn)) ((wNext v, Writing x (mkFile [] [])) :: wOpen v) (wNext v + 1) q (wEv v) in
    match body (mkWr (wNext v) []) u with
    | IOk _ w' => (exists f, forall y, wFS w' y = with_file (wFS w) x (Whole f) y) /\ wOpen w' = wOpen w /\ open_ok w'
    | IThrow _ w' => open_ok w' /\ wFS w' = with_file (wFS w) x Torn /\ exists f, wOpen w' = (wNext w, Writing x f) :: wOpen w
    | IUB _ => True
    | IDie w' => wFS w' = with_file (wFS w) x Torn
    end).
  { intros q u. specialize (H (wNext v) (wOpen v) (wFS (setFS v x Torn)) (wNext v + 1) (fresh_next w v O C1 C3) (mkWr (wNext v) []) eq_refl u).
    assert (U : wst (wNext v) x (wOpen v) (wFS (setFS v x Torn)) (wNext v + 1) u) by (split; [eexists; reflexivity|split; reflexivity]).
    specialize (H U). destruct (body _ u) as [a z|e z|y|z].
    - destruct H as (H1 & H2 & f & H3). split; [|split; [congruence|eapply open_ok_more; [exact O|congruence|exact H2|lia]]].
      exists f. intros y. rewrite H3. cbn. rewrite C2. unfold with_file. now destruct (String.eqb y x).
    - destruct H as [((f & H1) & H2 & H3)|(_ & [])]. split; [eapply open_ok_new; [exact O|rewrite <- C1, <- C3; exact H1|congruence]|].
      split; [rewrite H2; cbn; now rewrite C2|]. exists f. congruence.
    - exact Logic.I.
    - destruct H as (_ & H2 & _). rewrite H2. cbn. now rewrite C2. }
  unfold ibind. destruct (wQ v) as [|[|e|] q]; cbn [setQ setFS wO wFS wOpen wNext wQ wEv wchk iret ithrow].
  - specialize (G (wQ v)). cbn in G |- *. destruct (body _ _); tauto.
  - specialize (G q). cbn in G |- *. destruct (body _ _); tauto.
  - split; [eapply open_ok_more; [exact O|exact C1|exact C3|lia]|]. left. auto.
  - left. auto.
Qed.
Theorem write_ends version x (w : world) : open_ok w -> writing_ends x w (write_boozmn S version x w).
Proof.
  intros O. unfold write_boozmn. apply write_body_ends; [exact O|]. intros h l fs n Hl nc M.
  assert (HI := wst_files h x l fs n). repeat kw1 HI Hl.
Qed.
End Leak.

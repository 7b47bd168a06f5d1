(** What input and output leave alone, also when they throw. *)
From Coq Require Import ZArith List String Bool Lia.
From Verif Require Import Scalar Prog Model Wp Func Spec FuncExt RunThms Vmec VmecSpec VmecProof VmecRun VmecThms
  Nc NcModel NcSpec NcTri NcVoc.
Import ListNotations.
Local Open Scope Z_scope.

Ltac splits := repeat match goal with |- _ /\ _ => split end.

Section Keep.
Context {S : Scalar}.
Notation obj := (obj S).
Notation world := (world S).
Notation io := (io S).
Notation prog := (prog S).
Variables (kI : ifield -> bool) (kN : nfield -> bool).

(** ** Programs on the object *)
Fixpoint tame {A} (P : A -> Prop) (p : prog A) : Prop :=
  match p with
  | Ret a => P a
  | Throw _ | UB _ => True
  | GetI f k => forall v, tame P (k v)
  | SetI f v k => kI f = false /\ tame P k
  | GetB f k => forall v, tame P (k v)
  | SetB f v k => tame P k
  | GetF f k => forall v, tame P (k v)
  | SetF f v k => tame P k
  | GetN f i k => forall v, tame P (k v)
  | SizeN f k => forall n, tame P (k n)
  | SetNArr f v k => kN f = false /\ wf_arr v /\ acols v = 1 /\ tame P k
  | GetA f i k => forall v, tame P (k v)
  | PutA f i x k => tame P k
  | DimA f k => forall r c, tame P (k r c)
  | GetArr f k => forall a, wf_arr a -> tame P (k a)
  | SetArr f v k => wf_arr v /\ tame P k
  | Out e k => tame P k
  end.

Lemma tame_mono {A} (P Q : A -> Prop) (p : prog A) : (forall a, P a -> Q a) -> tame P p -> tame Q p.
Proof. intros H. induction p; cbn; intros; firstorder. Qed.
Lemma tame_bind {A B} (Q : B -> Prop) (p : prog A) (k : A -> prog B) : tame (fun a => tame Q (k a)) p -> tame Q (bind p k).
Proof. induction p; cbn; intros; firstorder. Qed.
Variable o0 : obj.
Definition kept (o : obj) : Prop := wf_obj o /\ (forall f, kI f = true -> oI o f = oI o0 f) /\ (forall f, kN f = true -> oN o f = oN o0 f).

Lemma set_nth_len {T} (l : list T) : forall n x, List.length (set_nth l n x) = List.length l.
Proof. induction l as [|a l IH]; intros [|n] x; cbn; auto. Qed.
Lemma wf_aput {T} (a : array T) i x : wf_arr a -> wf_arr (aput a i x).
Proof. unfold wf_arr, aput, zset. cbn. now rewrite set_nth_len. Qed.
Lemma kept_I o f v : kept o -> kI f = false -> kept (updI o f v).
Proof.
  intros (W & H1 & H2) Hf. split; [|split]; auto.
  - constructor; apply W.
  - intros g Hg. cbn. destruct (ifield_eq_dec g f); [congruence|auto].
Qed.
Lemma kept_B o f v : kept o -> kept (updB o f v).
Proof. intros (W & H1 & H2). split; [constructor; apply W|split; auto]. Qed.
Lemma kept_F o f v : kept o -> kept (updF o f v).
Proof. intros (W & H1 & H2). split; [constructor; apply W|split; auto]. Qed.
Lemma kept_N o f v : kept o -> kN f = false -> wf_arr v -> acols v = 1 -> kept (updN o f v).
Proof.
  intros (W & H1 & H2) Hf Wv Cv. split; [|split]; auto.
  - constructor; [|apply W]. intros g. cbn. destruct (nfield_eq_dec g f); [auto|apply W].
  - intros g Hg. cbn. destruct (nfield_eq_dec g f); [congruence|auto].
Qed.
Lemma kept_A o f v : kept o -> wf_arr v -> kept (updA o f v).
Proof.
  intros (W & H1 & H2) Wv. split; [|split]; auto.
  constructor; [apply W|]. intros g. cbn. destruct (afield_eq_dec g f); [auto|apply W].
Qed.

Lemma tame_run {A} (P : A -> Prop) (p : prog A) : forall o, tame P p -> kept o ->
  match run p o with ROk a o' _ => kept o' /\ P a | RThrow _ o' _ => kept o' | RUB _ => True end.
Proof.
  induction p as [a|m|y|f k IH|f v k IH|f k IH|f v k IH|f k IH|f v k IH|f i k IH|f k IH|f v k IH|f i k IH|f i x k IH|f k IH|f k IH|f v k IH|e k IH];
    intros o T Ko; cbn [run]; cbn [tame] in T.
  - auto.
  - exact Ko.
  - exact Logic.I.
  - destruct (oI o f); [apply IH; auto|exact Logic.I].
  - destruct T. apply IH; auto. now apply kept_I.
  - destruct (oB o f); [apply IH; auto|exact Logic.I].
  - apply IH; auto. now apply kept_B.
  - destruct (oF o f); [apply IH; auto|exact Logic.I].
  - apply IH; auto. now apply kept_F.
  - destruct (znth (adata (oN o f)) i) as [[v|]|]; [apply IH; auto|exact Logic.I|exact Logic.I].
  - apply IH; auto.
  - destruct T as (T1 & T2 & T3 & T4). apply IH; auto. now apply kept_N.
  - destruct (znth (adata (oA o f)) i) as [[v|]|]; [apply IH; auto|exact Logic.I|exact Logic.I].
  - destruct (znth (adata (oA o f)) i) as [v|]; [|exact Logic.I]. apply IH; auto. apply kept_A; auto. apply wf_aput. apply Ko.
  - apply IH; auto.
  - apply IH; auto. apply T. apply Ko.
  - destruct T. apply IH; auto. now apply kept_A.
  - specialize (IH o T Ko). destruct (run k o); cbn; auto.
Qed.
Lemma tame_for {St} (P : St -> Prop) lo hi st (body : Z -> St -> prog St) :
  P st -> (forall i s, P s -> tame P (body i s)) -> tame P (for_ lo hi st body).
Proof.
  intros H0 H. unfold for_. generalize (Z.to_nat (hi - lo)). intros n. revert lo st H0. induction n as [|n IH]; intros lo st H0; cbn; auto.
  apply tame_bind. eapply tame_mono; [|apply H; exact H0]. intros s Hs. now apply IH.
Qed.
Lemma tame_ret {A} (P : A -> Prop) a : P a -> tame P (Ret a).
Proof. auto. Qed.
Definition any {A} (_ : A) : Prop := True.
Lemma tame_vget {T} (a : array T) i : tame any (@vget S T a i).
Proof. unfold vget. destruct (znth (adata a) i) as [[v|]|]; cbn; exact Logic.I. Qed.
Lemma tame_vset {T} (a : array T) i x r c : wf_arr a -> arows a = r -> acols a = c ->
  tame (fun b => wf_arr b /\ arows b = r /\ acols b = c) (@vset S T a i x).
Proof. intros W H1 H2. unfold vset. destruct (znth (adata a) i); cbn; auto using wf_aput. Qed.
Lemma tame_int z : tame any (@int_ S z).
Proof. unfold int_. destruct (in_int z); cbn; exact Logic.I. Qed.
Lemma zrepeat_len {T} (x : T) n : 0 <= n -> Z.of_nat (List.length (zrepeat x n)) = n.
Proof. intros H. unfold zrepeat. rewrite repeat_length. lia. Qed.
Lemma tame_resize {T} (a : array T) r c : wf_arr a -> tame (fun b => wf_arr b /\ arows b = r /\ acols b = c) (@resize S T a r c).
Proof.
  intros (H1 & H2 & H3). unfold resize. destruct (Z.ltb_spec r 0); [exact Logic.I|]. destruct (Z.ltb_spec c 0); [exact Logic.I|]. cbn [orb].
  unfold asize. destruct (Z.eqb_spec (r * c) (arows a * acols a)) as [E|E]; cbn; splits; auto; unfold wf_arr; cbn; splits; auto.
  - now rewrite H3.
  - apply zrepeat_len. nia.
Qed.
Lemma wf_empty_mat {T} : wf_arr (@empty_mat T). Proof. unfold wf_arr. cbn. lia. Qed.
Lemma tame_zeros {T} (z : T) r c : tame (fun b => wf_arr b /\ arows b = r /\ acols b = c) (@zeros S T z r c).
Proof.
  unfold zeros. destruct (Z.ltb_spec r 0); [exact Logic.I|]. destruct (Z.ltb_spec c 0); [exact Logic.I|]. cbn. splits; auto.
  unfold wf_arr; cbn; splits; auto. apply zrepeat_len. nia.
Qed.
Lemma tame_resize_member f r c : tame any (resize_member S f r c).
Proof.
  unfold resize_member. apply tame_bind. cbn. intros a Wa. apply tame_bind.
  eapply tame_mono; [|apply (tame_resize a r c Wa)]. cbn. intros b (H & _). split; [exact H|exact Logic.I].
Qed.
Lemma tame_fill f n (x : Z -> prog (F S)) : (forall j, tame any (x j)) -> tame any (fill_vec S f n x).
Proof.
  intros Hx. unfold fill_vec. apply tame_bind. cbn. intros a Wa. apply tame_bind.
  apply tame_mono with (P := fun b => wf_arr b /\ arows b = arows a /\ acols b = acols a).
  - cbn. intros b (H & _). split; [exact H|exact Logic.I].
  - apply tame_for; auto. intros j b (H1 & H2 & H3). apply tame_bind. eapply tame_mono; [|apply Hx]. intros y _. now apply tame_vset.
Qed.
Lemma tame_neg (a : arr S) : wf_arr a -> tame (fun b => wf_arr b) (neg_arr S a).
Proof.
  intros (H1 & H2 & H3). unfold neg_arr. apply tame_bind.
  apply tame_mono with (P := fun b => wf_arr b /\ arows b = arows a /\ acols b = acols a); [cbn; tauto|].
  apply tame_for.
  - splits; auto. unfold wf_arr, asize. cbn. splits; auto. apply zrepeat_len. nia.
  - intros j b (G1 & G2 & G3). apply tame_bind. eapply tame_mono; [|apply tame_vget]. intros y _. now apply tame_vset.
Qed.

(** ** Input and output *)
Definition K (w : world) : Prop := kept (wO w) /\ open_ok w.
Definition pt {A} (m : io A) (w : world) (Q : A -> world -> Prop) (E : world -> Prop) : Prop :=
  match m w with IOk a w' => Q a w' | IThrow _ w' => E w' | IUB _ => True | IDie w' => E w' end.
Lemma pt_bind {A B} (m : io A) (k : A -> io B) w Q E : pt m w (fun a w' => pt (k a) w' Q E) E -> pt (ibind m k) w Q E.
Proof. unfold pt, ibind. destruct (m w); auto. Qed.
Lemma pt_mono {A} (m : io A) w (Q Q' : A -> world -> Prop) (E E' : world -> Prop) :
  (forall a w', Q a w' -> Q' a w') -> (forall w', E w' -> E' w') -> pt m w Q E -> pt m w Q' E'.
Proof. unfold pt. intros H1 H2. destruct (m w); auto. Qed.

(** [m] keeps [K], also when it throws *)
Definition keeps {A} (P : A -> Prop) (m : io A) : Prop := forall w, K w -> pt m w (fun a w' => K w' /\ P a) K.
(** ... and does not touch the object *)
Definition still {A} (P : A -> Prop) (m : io A) : Prop :=
  forall w, K w -> pt m w (fun a w' => K w' /\ wO w' = wO w /\ P a) (fun w' => K w' /\ wO w' = wO w).
(** ... when it throws *)
Definition keepsE {A} (m : io A) : Prop := forall w, K w -> pt m w (fun _ _ => True) K.

Lemma still_keeps {A} (P : A -> Prop) (m : io A) : still P m -> keeps P m.
Proof. intros H w Hw. eapply pt_mono; [| |exact (H w Hw)]; cbv beta; tauto. Qed.
Lemma keeps_bind {A B} (P : A -> Prop) (Q : B -> Prop) (m : io A) (k : A -> io B) :
  keeps P m -> (forall a, P a -> keeps Q (k a)) -> keeps Q (ibind m k).
Proof.
  intros H1 H2 w Hw. apply pt_bind. eapply pt_mono; [| |exact (H1 w Hw)]; cbv beta; auto.
  intros a w' (Hw' & Pa). exact (H2 a Pa w' Hw').
Qed.
Lemma still_bind {A B} (P : A -> Prop) (Q : B -> Prop) (m : io A) (k : A -> io B) :
  still P m -> (forall a, P a -> still Q (k a)) -> still Q (ibind m k).
Proof.
  intros H1 H2 w Hw. apply pt_bind. eapply pt_mono; [| |exact (H1 w Hw)]; cbv beta; auto.
  intros a w' (Hw' & Ho & Pa). eapply pt_mono; [| |exact (H2 a Pa w' Hw')]; cbv beta; rewrite Ho; tauto.
Qed.
Lemma keepsE_bind {A B} (P : A -> Prop) (m : io A) (k : A -> io B) :
  keeps P m -> (forall a, P a -> keepsE (k a)) -> keepsE (ibind m k).
Proof.
  intros H1 H2 w Hw. apply pt_bind. eapply pt_mono; [| |exact (H1 w Hw)]; cbv beta; auto.
  intros a w' (Hw' & Pa). exact (H2 a Pa w' Hw').
Qed.
Lemma keeps_mono {A} (P Q : A -> Prop) (m : io A) : (forall a, P a -> Q a) -> keeps P m -> keeps Q m.
Proof. intros H H1 w Hw. eapply pt_mono; [| |exact (H1 w Hw)]; cbv beta; firstorder. Qed.
Lemma still_mono {A} (P Q : A -> Prop) (m : io A) : (forall a, P a -> Q a) -> still P m -> still Q m.
Proof. intros H H1 w Hw. eapply pt_mono; [| |exact (H1 w Hw)]; cbv beta; firstorder. Qed.
Lemma still_ret {A} (P : A -> Prop) a : P a -> still P (iret a).
Proof. intros H w Hw. cbn. auto. Qed.
Lemma still_throw {A} (P : A -> Prop) m : still P (@ithrow S A m).
Proof. intros w Hw. cbn. auto. Qed.
Lemma still_ub {A} (P : A -> Prop) y : still P (@iub S A y).
Proof. intros w Hw. exact Logic.I. Qed.
Lemma K_addEv w e : K w -> K (addEv w e).
Proof. intros (H1 & H2). split; auto. Qed.
Lemma still_say t z x : still any (@say S t z x).
Proof. intros w Hw. cbn. split; [now apply K_addEv|]. split; [reflexivity|exact Logic.I]. Qed.
Lemma keeps_lift {A} (P : A -> Prop) (p : prog A) : tame P p -> keeps P (lift p).
Proof.
  intros T w (Kw & Ow). unfold pt, lift. pose proof (tame_run P p (wO w) T Kw) as H.
  destruct (run p (wO w)) as [a o ev|m o ev|y]; auto; [destruct H; split; auto|]; split; auto.
Qed.
Lemma keeps_try (m : io unit) : keeps any m -> keeps any (itry m).
Proof. intros H w Hw. specialize (H w Hw). unfold pt, itry in *. destruct (m w); auto. split; [exact H|exact Logic.I]. Qed.
Lemma keeps_obj : keeps (fun o => kept o) (theobj S).
Proof. intros w (H & H'). cbn. split; [split|]; auto. Qed.

(** The library *)
Lemma still_call {A} (P : code A -> Prop) (f : world -> ires S (code A)) : (forall m, P (Err m)) -> still P f -> still P (call f).
Proof.
  intros He H w Hw. unfold call, pt. destruct (wQ w) as [|[| |] q] eqn:Eq; auto.
  - exact (H w Hw).
  - assert (Kq : K (setQ w q)) by exact Hw. exact (H (setQ w q) Kq).
Qed.
Lemma open_new (w : world) x : open_ok w -> open_ok (snd (new_handle w x)).
Proof.
  unfold open_ok, new_handle. cbn. intros H. constructor; [cbn; lia|]. revert H. apply Forall_impl. intros p Hp. lia.
Qed.
Lemma open_put (w : world) h x : open_ok w -> open_ok (put_handle w h x).
Proof.
  unfold open_ok, put_handle. cbn. intros H. apply Forall_map. revert H. apply Forall_impl. intros p Hp.
  destruct (Z.eqb_spec (fst p) h); cbn; [subst; exact Hp|exact Hp].
Qed.
Lemma open_drop (w : world) h : open_ok w -> open_ok (drop_handle w h).
Proof. unfold open_ok, drop_handle. cbn. intros H. apply Forall_forall. intros p Hp. apply filter_In in Hp. rewrite Forall_forall in H. now apply H. Qed.

Ltac pure := intros w Hw; unfold pt; cbv beta;
  try destruct (contents w _); try destruct (lookup _ _); try destruct (find_var _ _);
  split; try exact Hw; split; try reflexivity; exact Logic.I.
Lemma still_open x : still any (@nc_open S x).
Proof.
  apply still_call; [intros; exact Logic.I|]. intros w (H1 & H2). unfold pt. destruct (wFS w x) as [[f|]|]; cbn.
  - split; [split; [exact H1|exact (open_new w (Reading f) H2)]|]. split; [reflexivity|exact Logic.I].
  - exact Logic.I.
  - split; [split; auto|]. split; [reflexivity|exact Logic.I].
Qed.
Lemma still_inq h : still any (@nc_inq S h).
Proof. apply still_call; [intros; exact Logic.I|]. pure. Qed.
Lemma still_dimid h x : still any (@nc_inq_dimid S h x).
Proof. apply still_call; [intros; exact Logic.I|]. pure. Qed.
Lemma still_dimlen h x : still any (@nc_inq_dimlen S h x).
Proof. apply still_call; [intros; exact Logic.I|]. pure. Qed.
Lemma still_varid h x : still any (@nc_inq_varid S h x).
Proof. apply still_call; [intros; exact Logic.I|]. pure. Qed.
Definition fits {T} (buf : list (option T)) (r : code (option string * list (option T))) : Prop :=
  match r with Good (_, l) => List.length l = List.length buf | Err _ => True end.
Lemma still_get {T} conv h x (buf : list (option T)) : still (fits buf) (@nc_get S T conv h x buf).
Proof.
  apply still_call; [intros; exact Logic.I|]. intros w Hw. unfold pt.
  destruct (contents w h) as [f|]; [|cbn; auto]. destruct (find_var f x) as [v|]; [|cbn; auto].
  destruct (conv (vr_val v)) as [[l rng]|]; [|cbn; auto].
  destruct (Nat.ltb_spec (List.length buf) (List.length l)); [exact Logic.I|]. cbn. splits; auto. rewrite app_length, skipn_length. lia.
Qed.
Lemma still_close h : still any (@nc_close S h).
Proof.
  apply still_call; [intros; exact Logic.I|]. intros w (H1 & H2). unfold pt. destruct (handle w h) as [[f|x f]|]; cbn.
  - split; [split; [exact H1|exact (open_drop w h H2)]|]. split; [reflexivity|exact Logic.I].
  - split; [split; [exact H1|exact (open_drop w h H2)]|]. split; [reflexivity|exact Logic.I].
  - split; [split; auto|]. split; [reflexivity|exact Logic.I].
Qed.
Lemma still_create x : still any (@nc_create S x).
Proof.
  apply still_call; [intros; exact Logic.I|]. intros w (H1 & H2). cbn.
  split; [split; [exact H1|exact (open_new w (Writing x (mkFile [] [])) H2)]|]. split; [reflexivity|exact Logic.I].
Qed.
Lemma still_define {A} h (f : ncfile S -> code (A * ncfile S)) : still any (define h f).
Proof.
  apply still_call; [intros; exact Logic.I|]. intros w (H1 & H2). unfold pt. destruct (handle w h) as [[g|x g]|]; cbn.
  - split; [split; auto|]. split; [reflexivity|exact Logic.I].
  - destruct (f g) as [m|[a g']]; (split; [split; auto using open_put|]; split; [reflexivity|exact Logic.I]).
  - split; [split; auto|]. split; [reflexivity|exact Logic.I].
Qed.
Lemma still_enddef h : still any (@nc_enddef S h).
Proof. apply still_call; [intros; exact Logic.I|]. pure. Qed.
Lemma still_put_var h x get : still any (@nc_put_var S h x get).
Proof.
  apply still_call; [intros; exact Logic.I|]. intros w (H1 & H2). unfold pt. destruct (handle w h) as [[g|n g]|]; cbn.
  - split; [split; auto|]. split; [reflexivity|exact Logic.I].
  - destruct (find_var g x) as [v|].
    + destruct (get w _); [|exact Logic.I]. split; [split; auto using open_put|]; split; [reflexivity|exact Logic.I].
    + split; [split; auto|]. split; [reflexivity|exact Logic.I].
  - split; [split; auto|]. split; [reflexivity|exact Logic.I].
Qed.

(** netcdf_reader.cpp *)
Lemma still_rerr {A} (P : A -> Prop) d m : still P (@rerr S A d m).
Proof. unfold rerr. eapply still_bind; [apply still_say|]. intros _ _. apply still_throw. Qed.
Lemma still_rchk {A} (P : A -> Prop) d (c : code A) : (forall a, c = Good a -> P a) -> still P (@rchk S A d c).
Proof. intros H. destruct c as [m|a]; cbn; [apply still_rerr|]. apply still_ret. auto. Qed.
Lemma still_reader x : still any (@reader S x).
Proof.
  unfold reader. eapply still_bind; [apply still_open|]. intros c _. eapply still_bind; [apply still_rchk with (P := any); intros; exact Logic.I|].
  intros h _. eapply still_bind; [apply still_inq|]. intros c' _. eapply still_bind; [apply still_rchk with (P := any); intros; exact Logic.I|].
  intros _ _. apply still_ret. exact Logic.I.
Qed.
Lemma still_getdim h x : still any (@getdim S h x).
Proof.
  unfold getdim. eapply still_bind; [apply still_dimid|]. intros c _. eapply still_bind; [apply still_rchk with (P := any); intros; exact Logic.I|].
  intros _ _. eapply still_bind; [apply still_dimlen|]. intros c' _. apply still_rchk. intros; exact Logic.I.
Qed.
Lemma pt_rget {T} conv h x (buf : list (option T)) store w : K w ->
  (forall l w', List.length l = List.length buf -> K w' -> wO w' = wO w -> pt (store l) w' (fun _ w2 => K w2) K) ->
  pt (rget S conv h x buf store) w (fun l w' => K w' /\ List.length l = List.length buf) K.
Proof.
  intros Hw Hs. unfold rget.
  apply pt_bind. eapply pt_mono; [| |exact (still_varid h x w Hw)]; [|cbv beta; tauto]. cbv beta. intros c w1 (K1 & O1 & _).
  apply pt_bind. eapply pt_mono; [| |refine (still_rchk (@any unit) x c _ w1 K1); intros; exact Logic.I]; [|cbv beta; tauto].
  cbv beta. intros _ w2 (K2 & O2 & _).
  apply pt_bind. eapply pt_mono with (Q := fun _ w3 => w3 = w2) (E := fun _ => False); [|tauto|destruct (_ =? _)%nat; cbn; auto].
  cbv beta. intros _ w3 ->.
  apply pt_bind. eapply pt_mono; [| |exact (still_get conv h x buf w2 K2)]; [|cbv beta; tauto]. cbv beta. intros r w3 (K3 & O3 & Fr).
  apply pt_bind. eapply pt_mono; [| |refine (still_rchk (fun p => List.length (snd p) = List.length buf) x r _ w3 K3); intros [e l] ->; exact Fr];
    [|cbv beta; tauto]. cbv beta. intros [e l] w4 (K4 & O4 & Hl). cbn in Hl.
  apply pt_bind. eapply pt_mono; [|intros ? H; exact H|refine (Hs l w4 Hl K4 _); congruence]. cbv beta. intros _ w5 K5.
  destruct e as [m|].
  - eapply pt_mono; [| |exact (still_rerr (fun _ => False) x m w5 K5)]; cbv beta; tauto.
  - cbn. auto.
Qed.
Lemma keeps_get_int h x f : kI f = false -> keeps any (get_int S h x f).
Proof.
  intros Hf w Hw. unfold get_int. apply pt_bind. cbn. apply pt_bind. eapply pt_mono; [| |apply pt_rget].
  - cbv beta. intros l w' (K' & _). cbn. split; [exact K'|exact Logic.I].
  - auto.
  - exact Hw.
  - intros l w' Hl (K1 & K2) O'. cbn. split; [|exact K2]. now apply kept_I.
Qed.
Lemma keeps_get_flt h x f : keeps any (get_flt S h x f).
Proof.
  intros w Hw. unfold get_flt. apply pt_bind. cbn. apply pt_bind. eapply pt_mono; [| |apply pt_rget].
  - cbv beta. intros l w' (K' & _). cbn. split; [exact K'|exact Logic.I].
  - auto.
  - exact Hw.
  - intros l w' Hl (K1 & K2) O'. cbn. split; [|exact K2]. now apply kept_F.
Qed.
Lemma keeps_get_ints h x f : kN f = false -> keeps any (get_ints S h x f).
Proof.
  intros Hf w Hw. unfold get_ints. apply pt_bind. cbn. apply pt_bind. eapply pt_mono; [| |apply pt_rget].
  - cbv beta. intros l w' (K' & _). cbn. split; [exact K'|exact Logic.I].
  - auto.
  - exact Hw.
  - intros l w' Hl (K1 & K2) O'. cbn. split; [|exact K2]. pose proof K1 as (W & _). destruct (wf_N _ W f) as ((G1 & G2 & G3) & G4).
    apply kept_N; auto. unfold wf_arr. cbn. splits; auto. rewrite Hl, <- O'. exact G3.
Qed.
Lemma keeps_get_arr h x f : keeps any (get_arr S h x f).
Proof.
  intros w Hw. unfold get_arr. apply pt_bind. cbn. apply pt_bind. eapply pt_mono; [| |apply pt_rget].
  - cbv beta. intros l w' (K' & _). cbn. split; [exact K'|exact Logic.I].
  - auto.
  - exact Hw.
  - intros l w' Hl (K1 & K2) O'. cbn. split; [|exact K2]. pose proof K1 as (W & _). destruct (wf_A _ W f) as (G1 & G2 & G3).
    apply kept_A; auto. unfold wf_arr. cbn. splits; auto. rewrite Hl, <- O'. exact G3.
Qed.
Lemma pt_drop {T} (l : T) w : K w -> pt (drop S l) w (fun _ w2 => K w2) K.
Proof. auto. Qed.
Lemma keeps_local_int h x : keeps any (get_local_int S h x).
Proof.
  intros w Hw. unfold get_local_int. apply pt_bind. eapply pt_mono; [| |apply pt_rget; [exact Hw|intros; now apply pt_drop]]; auto.
  cbv beta. intros l w' (K' & _). cbn. split; [exact K'|exact Logic.I].
Qed.
Lemma keeps_local h x a : keeps any (get_local S h x a).
Proof.
  intros w Hw. unfold get_local. apply pt_bind. eapply pt_mono; [| |apply pt_rget; [exact Hw|intros; now apply pt_drop]]; auto.
  cbv beta. intros l w' (K' & _). cbn. split; [exact K'|exact Logic.I].
Qed.
Lemma still_val {T} (x : option T) : still any (@val S T x).
Proof. destruct x; [apply still_ret; exact Logic.I|apply still_ub]. Qed.
Lemma still_rclose h : still any (@rclose S h).
Proof. unfold rclose. eapply still_bind; [apply still_close|]. intros c _. apply still_rchk. intros; exact Logic.I. Qed.
Lemma keeps_resize_ints f n : kN f = false -> keeps any (resize_ints S f n).
Proof.
  intros Hf. unfold resize_ints. eapply keeps_bind; [apply keeps_obj|]. intros o (W & _).
  eapply keeps_bind; [apply keeps_lift, (tame_resize (oN o f) n 1), W|]. intros a (W' & _ & C). apply keeps_lift. cbn. splits; auto. exact Logic.I.
Qed.
Lemma keeps_resize_arr f r c : keeps any (resize_arr S f r c).
Proof. apply keeps_lift, tame_resize_member. Qed.
Lemma keeps_new_vec n : keeps any (new_vec S n).
Proof. apply keeps_lift. eapply tame_mono; [|apply (tame_resize empty_vec n 1), wf_empty_vec]. intros; exact Logic.I. Qed.
Lemma keeps_new_mat r c : keeps any (new_mat S r c).
Proof. apply keeps_lift. eapply tame_mono; [|apply (tame_resize empty_mat r c), wf_empty_mat]. intros; exact Logic.I. Qed.
Lemma keeps_chatter (p : prog unit) : tame any p -> keeps any (chatter S p).
Proof. intros H. apply keeps_lift. apply tame_bind. cbn. intros v. destruct (0 <? v); [exact H|exact Logic.I]. Qed.
Lemma keeps_get_mat h x r c : keeps any (get_mat S h x r c).
Proof. unfold get_mat. eapply keeps_bind; [apply keeps_new_mat|]. intros a _. apply keeps_local. Qed.
Lemma keeps_get_vec h x n : keeps any (get_vec S h x n).
Proof. unfold get_vec. eapply keeps_bind; [apply keeps_new_vec|]. intros a _. apply keeps_local. Qed.
Lemma keeps_ret {A} (P : A -> Prop) a : P a -> keeps P (iret a).
Proof. intros H. now apply still_keeps, still_ret. Qed.
Lemma tame_any {A} (P : A -> Prop) p : tame P p -> tame any p.
Proof. apply tame_mono. intros; exact Logic.I. Qed.

End Keep.

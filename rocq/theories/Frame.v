(** Members that a call can change, for any object and any outcome. *)
From Coq Require Import ZArith List String Bool Lia.
From Verif Require Import Scalar Prog Model Wp Func FuncExt Spec Vmec Nc NcModel Py.
Import ListNotations.
Local Open Scope Z_scope.

(** ** Vocabulary *)

(** A member of the object *)
Inductive mem : Set := MI (f : ifield) | MB (f : bfield) | MF (f : ffield) | MN (f : nfield) | MA (f : afield).

Definition input_arrays : list afield :=
  [A_s_in; A_iota; A_phi; A_chi; A_phip; A_pres; A_rmnc; A_rmns; A_zmnc; A_zmns; A_lmnc; A_lmns;
   A_bmnc; A_bmns; A_bsubumnc; A_bsubumns; A_bsubvmnc; A_bsubvmns].
(** The attributes under "Outputs" (bindings.cpp:292-395) *)
Definition result_members : list mem :=
  [MI I_ns_b; MI I_mnboz; MN N_xm_b; MN N_xn_b; MA A_s_b] ++
  map MA [A_bmnc_b; A_bmns_b; A_gmnc_b; A_gmns_b; A_rmnc_b; A_rmns_b; A_zmnc_b; A_zmns_b; A_numnc_b; A_numns_b;
          A_Boozer_G; A_Boozer_G_all; A_Boozer_I; A_Boozer_I_all].
Definition private_members : list mem :=
  [MI I_nu2_b; MI I_nu3_b; MI I_ntheta; MI I_nzeta; MI I_n_theta_zeta; MF F_d_theta; MF F_d_zeta] ++
  map MA [A_theta_grid; A_zeta_grid; A_cosm; A_sinm; A_cosn; A_sinn; A_cosm_nyq; A_sinm_nyq; A_cosn_nyq; A_sinn_nyq].
(** What init_from_vmec stores *)
Definition vmec_members : list mem :=
  [MI I_ns_in; MI I_mboz; MI I_nboz; MF F_toroidal_flux; MN N_compute_surfs] ++ map MA input_arrays.

(** The attributes under "Inputs" (bindings.cpp:106-290) *)
Definition input_members : list mem :=
  [MI I_verbose; MI I_nfp; MI I_mpol; MI I_ntor; MI I_mnmax; MI I_mpol_nyq; MI I_ntor_nyq; MI I_mnmax_nyq; MI I_ns_in; MI I_mboz; MI I_nboz;
   MB B_asym; MF F_aspect; MF F_toroidal_flux; MN N_xm; MN N_xn; MN N_xm_nyq; MN N_xn_nyq; MN N_compute_surfs] ++ map MA input_arrays.
(** The member that is assigned to *)
Definition target {S : Scalar} (c : call S) : option mem :=
  match c with
  | PutInt f _ => Some (MI f) | PutBool f _ => Some (MB f) | PutFlt f _ => Some (MF f)
  | PutInts f _ _ => Some (MN f) | PutArr f _ _ _ => Some (MA f)
  | _ => None
  end.
(** The attributes that are vectors of real numbers *)
Definition vectors : list afield := [A_s_in; A_iota; A_phi; A_chi; A_phip; A_pres].
(** The value can be converted to the type of the member: an int of 32 bits, a one-dimensional
    array for a vector. *)
Definition convertible {S : Scalar} (c : call S) : Prop :=
  match c with
  | PutInt _ v => -2147483648 <= v <= 2147483647
  | PutArr f _ c _ => In f vectors -> c = 1%nat
  | _ => True
  end.
(** The value that [c] assigns is what the object has. *)
Definition stored {S : Scalar} (c : call S) (o : obj S) : Prop :=
  match c with
  | PutInt f v => oI o f = Some v
  | PutBool f v => oB o f = Some v
  | PutFlt f v => oF o f = Some v
  | PutInts f n g => forall k, elemN o f k = if (0 <=? k) && (k <? Z.of_nat n) then Some (Some (g k)) else None
  | PutArr f r c g =>
      arows (oA o f) = Z.of_nat r /\ acols (oA o f) = Z.of_nat c /\
      forall j k, 0 <= j < Z.of_nat r -> 0 <= k < Z.of_nat c -> elem2 o f j k = Some (Some (g j k))
  | _ => False
  end.

(** The members a call may change; the others keep their value. *)
Definition changes {S : Scalar} (c : call S) : list mem :=
  match c with
  | New => []
  | PutInt f _ => [MI f]
  | PutBool f _ => [MB f]
  | PutFlt f _ => [MF f]
  | PutInts f _ _ => [MN f]
  | PutArr f _ _ _ => [MA f]
  | ReadWout _ _ =>
      [MB B_asym; MI I_nfp; MI I_mpol; MI I_ntor; MI I_mnmax; MI I_mnmax_nyq; MI I_mpol_nyq; MI I_ntor_nyq; MF F_aspect;
       MN N_xm; MN N_xn; MN N_xm_nyq; MN N_xn_nyq] ++ vmec_members
  | InitFromVmec _ => vmec_members
  | Run => private_members ++ result_members
  | Write _ => [MA A_phip]
  | ReadBoozmn _ =>
      [MB B_asym; MI I_nfp; MI I_mboz; MI I_nboz; MI I_mnboz; MI I_ns_in; MI I_ns_b; MF F_toroidal_flux;
       MN N_xm_b; MN N_xn_b; MN N_compute_surfs] ++
      map MA [A_s_b; A_iota; A_phi; A_chi; A_phip; A_pres; A_Boozer_G_all; A_Boozer_I_all;
              A_bmnc_b; A_bmns_b; A_gmnc_b; A_gmns_b; A_rmnc_b; A_rmns_b; A_zmnc_b; A_zmns_b; A_numnc_b; A_numns_b]
  | Elsewhere _ => []
  end.

(** The calls that a user expects to change the results *)
Definition brings_results {S : Scalar} (c : call S) : bool := match c with New | Run | ReadBoozmn _ => true | _ => false end.

Section Kept.
Context {S : Scalar}.
Definition kept_in (o o' : obj S) (x : mem) : Prop :=
  match x with
  | MI f => oI o' f = oI o f
  | MB f => oB o' f = oB o f
  | MF f => oF o' f = oF o f
  | MN f => oN o' f = oN o f
  | MA f => oA o' f = oA o f
  end.
(** After the call [c] the object is [w']: it returned, threw an exception, or the process was killed. *)
Definition leaves version (c : call S) (w w' : world S) : Prop :=
  exec version c w = IOk tt w' \/ (exists m, exec version c w = IThrow m w') \/ exec version c w = IDie w'.
(** Calls one after the other, whether they succeed or throw *)
Inductive performs version : list (call S) -> world S -> world S -> Prop :=
| pf_nil w : performs version [] w w
| pf_ok c l w w1 w2 : exec version c w = IOk tt w1 -> performs version l w1 w2 -> performs version (c :: l) w w2
| pf_exn c l w m w1 w2 : exec version c w = IThrow m w1 -> performs version l w1 w2 -> performs version (c :: l) w w2.
End Kept.

(** ** Programs *)
Section Frame.
Context {S : Scalar}.
Notation obj := (obj S).
Notation world := (world S).
Notation io := (io S).
Notation prog := (prog S).
Variable L : list mem.
Definition same (o o' : obj) : Prop := forall x, ~ In x L -> kept_in o o' x.

Lemma same_refl o : same o o.
Proof. intros [f|f|f|f|f] _; reflexivity. Qed.
Lemma same_trans a b c : same a b -> same b c -> same a c.
Proof. intros H1 H2 x Hx. specialize (H1 x Hx). specialize (H2 x Hx). destruct x; cbn in *; congruence. Qed.
Lemma same_I o f v : In (MI f) L -> same o (updI o f v).
Proof. intros H [g|g|g|g|g] Hx; try reflexivity. cbn. destruct (ifield_eq_dec g f); [subst; contradiction|reflexivity]. Qed.
Lemma same_B o f v : In (MB f) L -> same o (updB o f v).
Proof. intros H [g|g|g|g|g] Hx; try reflexivity. cbn. destruct (bfield_eq_dec g f); [subst; contradiction|reflexivity]. Qed.
Lemma same_F o f v : In (MF f) L -> same o (updF o f v).
Proof. intros H [g|g|g|g|g] Hx; try reflexivity. cbn. destruct (ffield_eq_dec g f); [subst; contradiction|reflexivity]. Qed.
Lemma same_N o f v : In (MN f) L -> same o (updN o f v).
Proof. intros H [g|g|g|g|g] Hx; try reflexivity. cbn. destruct (nfield_eq_dec g f); [subst; contradiction|reflexivity]. Qed.
Lemma same_A o f v : In (MA f) L -> same o (updA o f v).
Proof. intros H [g|g|g|g|g] Hx; try reflexivity. cbn. destruct (afield_eq_dec g f); [subst; contradiction|reflexivity]. Qed.

Fixpoint spares {A} (p : prog A) : Prop :=
  match p with
  | Ret _ | Throw _ | UB _ => True
  | GetI f k => forall v, spares (k v)
  | SetI f v k => In (MI f) L /\ spares k
  | GetB f k => forall v, spares (k v)
  | SetB f v k => In (MB f) L /\ spares k
  | GetF f k => forall v, spares (k v)
  | SetF f v k => In (MF f) L /\ spares k
  | GetN f i k => forall v, spares (k v)
  | SizeN f k => forall n, spares (k n)
  | SetNArr f v k => In (MN f) L /\ spares k
  | GetA f i k => forall v, spares (k v)
  | PutA f i x k => In (MA f) L /\ spares k
  | DimA f k => forall r c, spares (k r c)
  | GetArr f k => forall a, spares (k a)
  | SetArr f v k => In (MA f) L /\ spares k
  | Out e k => spares k
  end.
Lemma spares_bind {A B} (p : prog A) (k : A -> prog B) : spares p -> (forall a, spares (k a)) -> spares (bind p k).
Proof. induction p; cbn; intros; firstorder. Qed.
Lemma spares_for {St} lo hi (st : St) body : (forall i s, spares (body i s)) -> spares (for_ lo hi st body).
Proof.
  intros H. unfold for_. generalize (Z.to_nat (hi - lo)). intros n. revert lo st. induction n as [|n IH]; intros lo st; cbn; [exact Logic.I|].
  apply spares_bind; auto.
Qed.
Lemma spares_run {A} (p : prog A) : forall o, spares p ->
  match run p o with ROk _ o' _ => same o o' | RThrow _ o' _ => same o o' | RUB _ => True end.
Proof.
  assert (Step : forall (o o1 : obj) (r : res S A), same o o1 ->
    match r with ROk _ o' _ => same o1 o' | RThrow _ o' _ => same o1 o' | RUB _ => True end ->
    match r with ROk _ o' _ => same o o' | RThrow _ o' _ => same o o' | RUB _ => True end)
    by (intros o o1 [a o' ev|m o' ev|y] H; auto; apply same_trans; exact H).
  induction p as [a|m|y|f k IH|f v k IH|f k IH|f v k IH|f k IH|f v k IH|f i k IH|f k IH|f v k IH|f i k IH|f i x k IH|f k IH|f k IH|f v k IH|e k IH];
    intros o T; cbn [run]; cbn [spares] in T.
  - apply same_refl.
  - apply same_refl.
  - exact Logic.I.
  - destruct (oI o f); [apply IH; auto|exact Logic.I].
  - destruct T as (T1 & T2). exact (Step _ _ _ (same_I o f _ T1) (IH _ T2)).
  - destruct (oB o f); [apply IH; auto|exact Logic.I].
  - destruct T as (T1 & T2). exact (Step _ _ _ (same_B o f _ T1) (IH _ T2)).
  - destruct (oF o f); [apply IH; auto|exact Logic.I].
  - destruct T as (T1 & T2). exact (Step _ _ _ (same_F o f _ T1) (IH _ T2)).
  - destruct (znth (adata (oN o f)) i) as [[v|]|]; [apply IH; auto|exact Logic.I|exact Logic.I].
  - apply IH; auto.
  - destruct T as (T1 & T2). exact (Step _ _ _ (same_N o f _ T1) (IH _ T2)).
  - destruct (znth (adata (oA o f)) i) as [[v|]|]; [apply IH; auto|exact Logic.I|exact Logic.I].
  - destruct T as (T1 & T2). destruct (znth (adata (oA o f)) i); [|exact Logic.I]. exact (Step _ _ _ (same_A o f _ T1) (IH _ T2)).
  - apply IH; auto.
  - apply IH; auto.
  - destruct T as (T1 & T2). exact (Step _ _ _ (same_A o f _ T1) (IH _ T2)).
  - specialize (IH o T). destruct (run k o); cbn; auto.
Qed.

(** ** Input and output *)
Definition quiet {A} (m : io A) : Prop := forall w,
  match m w with IOk _ w' => same (wO w) (wO w') | IThrow _ w' => same (wO w) (wO w') | IUB _ => True | IDie w' => same (wO w) (wO w') end.
Lemma quiet_bind {A B} (m : io A) (k : A -> io B) : quiet m -> (forall a, quiet (k a)) -> quiet (ibind m k).
Proof.
  intros H1 H2 w. unfold ibind. specialize (H1 w). destruct (m w) as [a w'|e w'|y|w']; auto.
  specialize (H2 a w'). destruct (k a w'); auto; eapply same_trans; eauto.
Qed.
Lemma quiet_ret {A} (a : A) : quiet (iret a).
Proof. intros w. apply same_refl. Qed.
Lemma quiet_throw {A} m : quiet (@ithrow S A m).
Proof. intros w. apply same_refl. Qed.
Lemma quiet_ub {A} y : quiet (@iub S A y).
Proof. intros w. exact Logic.I. Qed.
Lemma quiet_say t z x : quiet (@say S t z x).
Proof. intros w. apply same_refl. Qed.
Lemma quiet_lift {A} (p : prog A) : spares p -> quiet (lift p).
Proof. intros H w. unfold lift. pose proof (spares_run p (wO w) H) as G. destruct (run p (wO w)); exact G. Qed.
Lemma quiet_try m : quiet m -> quiet (itry m).
Proof. intros H w. specialize (H w). unfold itry. destruct (m w); auto. Qed.
Lemma quiet_obj : quiet (theobj S).
Proof. intros w. apply same_refl. Qed.
Lemma quiet_call {A} (f : world -> ires S (code A)) : quiet f -> quiet (Nc.call f).
Proof.
  intros H w. unfold Nc.call. destruct (wQ w) as [|[| |] q]; try apply same_refl; [exact (H w)|exact (H (setQ w q))].
Qed.
Lemma quiet_define {A} h (f : ncfile S -> code (A * ncfile S)) : quiet (define h f).
Proof. apply quiet_call. intros w. destruct (handle w h) as [[g|x g]|]; try apply same_refl. destruct (f g) as [m|[a g']]; apply same_refl. Qed.
Lemma quiet_open x : quiet (@nc_open S x).
Proof. apply quiet_call. intros w. destruct (wFS w x) as [[f|]|]; try apply same_refl. exact Logic.I. Qed.
Lemma quiet_inq h : quiet (@nc_inq S h).
Proof. apply quiet_call. intros w. apply same_refl. Qed.
Lemma quiet_enddef h : quiet (@nc_enddef S h).
Proof. apply quiet_call. intros w. apply same_refl. Qed.
Lemma quiet_inq_dimid h x : quiet (@nc_inq_dimid S h x).
Proof. apply quiet_call. intros w. destruct (contents w h) as [f|]; [destruct (lookup (nf_dims f) x)|]; apply same_refl. Qed.
Lemma quiet_inq_dimlen h x : quiet (@nc_inq_dimlen S h x).
Proof. apply quiet_call. intros w. destruct (contents w h) as [f|]; [destruct (lookup (nf_dims f) x)|]; apply same_refl. Qed.
Lemma quiet_inq_varid h x : quiet (@nc_inq_varid S h x).
Proof. apply quiet_call. intros w. destruct (contents w h) as [f|]; [destruct (find_var f x)|]; apply same_refl. Qed.
Lemma quiet_get {T} conv h x buf : quiet (@nc_get S T conv h x buf).
Proof.
  apply quiet_call. intros w. destruct (contents w h) as [f|]; [|apply same_refl]. destruct (find_var f x) as [v|]; [|apply same_refl].
  destruct (conv (vr_val v)) as [[l r]|]; [|apply same_refl]. destruct (_ <? _)%nat; [exact Logic.I|apply same_refl].
Qed.
Lemma quiet_close h : quiet (@nc_close S h).
Proof. apply quiet_call. intros w. destruct (handle w h) as [[g|x g]|]; apply same_refl. Qed.
Lemma quiet_create x : quiet (@nc_create S x).
Proof. apply quiet_call. intros w. apply same_refl. Qed.
Lemma quiet_put_var h x get : quiet (@nc_put_var S h x get).
Proof.
  apply quiet_call. intros w. destruct (handle w h) as [[g|n g]|]; try apply same_refl. destruct (find_var g x) as [v|]; [|apply same_refl].
  destruct (get w (vlen g (vr_dims v))); [apply same_refl|exact Logic.I].
Qed.

(** netcdf_reader.cpp *)
Lemma quiet_rerr {A} d m : quiet (@rerr S A d m).
Proof. apply quiet_bind; [apply quiet_say|intros; apply quiet_throw]. Qed.
Lemma quiet_rchk {A} d (c : code A) : quiet (rchk S d c).
Proof. destruct c; [apply quiet_rerr|apply quiet_ret]. Qed.
Lemma quiet_reader x : quiet (reader S x).
Proof.
  apply quiet_bind; [apply quiet_open|]. intros c. apply quiet_bind; [apply quiet_rchk|]. intros h.
  apply quiet_bind; [apply quiet_inq|]. intros c'. apply quiet_bind; [apply quiet_rchk|]. intros; apply quiet_ret.
Qed.
Lemma quiet_getdim h x : quiet (getdim S h x).
Proof.
  apply quiet_bind; [apply quiet_inq_dimid|]. intros c. apply quiet_bind; [apply quiet_rchk|]. intros _.
  apply quiet_bind; [apply quiet_inq_dimlen|]. intros c'. apply quiet_rchk.
Qed.
Lemma quiet_rclose h : quiet (rclose S h).
Proof. apply quiet_bind; [apply quiet_close|]. intros; apply quiet_rchk. Qed.
Lemma quiet_rget {T} conv h x (buf : list (option T)) store : (forall l, quiet (store l)) -> quiet (rget S conv h x buf store).
Proof.
  intros H. apply quiet_bind; [apply quiet_inq_varid|]. intros c. apply quiet_bind; [apply quiet_rchk|]. intros _.
  apply quiet_bind; [destruct (_ =? _)%nat; [apply quiet_ub|apply quiet_ret]|]. intros _.
  apply quiet_bind; [apply quiet_get|]. intros c'. apply quiet_bind; [apply quiet_rchk|]. intros [e l].
  apply quiet_bind; [apply H|]. intros _. destruct e; [apply quiet_rerr|apply quiet_ret].
Qed.
Lemma quiet_upd (f : obj -> obj) : (forall o, same o (f o)) -> quiet (ibind (theobj S) (fun o => setobj S (f o))).
Proof. intros H w. cbn. apply H. Qed.
Lemma quiet_get_int h x f : In (MI f) L -> quiet (get_int S h x f).
Proof.
  intros H. apply quiet_bind; [apply quiet_obj|]. intros o. apply quiet_bind; [|intros; apply quiet_ret].
  apply quiet_rget. intros l. apply (quiet_upd (fun o => updI o f _)). intros. now apply same_I.
Qed.
Lemma quiet_get_flt h x f : In (MF f) L -> quiet (get_flt S h x f).
Proof.
  intros H. apply quiet_bind; [apply quiet_obj|]. intros o. apply quiet_bind; [|intros; apply quiet_ret].
  apply quiet_rget. intros l. apply (quiet_upd (fun o => updF o f _)). intros. now apply same_F.
Qed.
Lemma quiet_get_ints h x f : In (MN f) L -> quiet (get_ints S h x f).
Proof.
  intros H. apply quiet_bind; [apply quiet_obj|]. intros o. apply quiet_bind; [|intros; apply quiet_ret].
  apply quiet_rget. intros l. apply (quiet_upd (fun o => updN o f (mkArr (arows (oN o f)) (acols (oN o f)) l))). intros. now apply same_N.
Qed.
Lemma quiet_get_arr h x f : In (MA f) L -> quiet (get_arr S h x f).
Proof.
  intros H. apply quiet_bind; [apply quiet_obj|]. intros o. apply quiet_bind; [|intros; apply quiet_ret].
  apply quiet_rget. intros l. apply (quiet_upd (fun o => updA o f (mkArr (arows (oA o f)) (acols (oA o f)) l))). intros. now apply same_A.
Qed.
Lemma quiet_get_local_int h x : quiet (get_local_int S h x).
Proof. apply quiet_bind; [|intros; apply quiet_ret]. apply quiet_rget. intros; apply quiet_ret. Qed.
Lemma quiet_get_local h x a : quiet (get_local S h x a).
Proof. apply quiet_bind; [|intros; apply quiet_ret]. apply quiet_rget. intros; apply quiet_ret. Qed.
Lemma quiet_val {T} (x : option T) : quiet (val S x).
Proof. destruct x; [apply quiet_ret|apply quiet_ub]. Qed.

(** Pieces of programs *)
Lemma spares_int z : spares (@int_ S z).
Proof. unfold int_. destruct (in_int z); exact Logic.I. Qed.
Lemma spares_idiv a b : spares (@idiv S a b).
Proof. unfold idiv. destruct (b =? 0); [exact Logic.I|apply spares_int]. Qed.
Lemma spares_irem a b : spares (@irem S a b).
Proof. unfold irem. destruct (b =? 0); [exact Logic.I|]. repeat match goal with |- spares (if ?c then _ else _) => destruct c end; try exact Logic.I; apply spares_int. Qed.
Lemma spares_vget {T} (a : array T) i : spares (@vget S T a i).
Proof. unfold vget. destruct (znth (adata a) i) as [[v|]|]; exact Logic.I. Qed.
Lemma spares_vset {T} (a : array T) i x : spares (@vset S T a i x).
Proof. unfold vset. destruct (znth (adata a) i); exact Logic.I. Qed.
Lemma spares_mget {T} (a : array T) i j : spares (@mget S T a i j).
Proof. unfold mget. repeat match goal with |- spares (if ?c then _ else _) => destruct c end; try exact Logic.I; apply spares_vget. Qed.
Lemma spares_mset {T} (a : array T) i j x : spares (@mset S T a i j x).
Proof. unfold mset. repeat match goal with |- spares (if ?c then _ else _) => destruct c end; try exact Logic.I; apply spares_vset. Qed.
Lemma spares_vinc (a : arr S) i x : spares (@vinc S a i x).
Proof. unfold vinc. apply spares_bind; [apply spares_vget|]. intros; apply spares_vset. Qed.
Lemma spares_zeros {T} (z : T) r c : spares (@zeros S T z r c).
Proof. unfold zeros. destruct ((r <? 0) || (c <? 0)); exact Logic.I. Qed.
Lemma spares_resize {T} (a : array T) r c : spares (@resize S T a r c).
Proof. unfold resize. destruct ((r <? 0) || (c <? 0)); [exact Logic.I|]. destruct (_ =? _); exact Logic.I. Qed.
Lemma spares_getm f i j : spares (@getm S f i j).
Proof. unfold getm. cbn. intros r c. destruct (inside i j r c); cbn; auto. Qed.
Lemma spares_putm f i j x : In (MA f) L -> spares (@putm S f i j x).
Proof. intros H. unfold putm. cbn. intros r c. destruct (inside i j r c); cbn; auto. Qed.
Lemma spares_incs i j (l : list (afield * F S)) : (forall p, In p l -> In (MA (fst p)) L) -> spares (incs S i j l).
Proof.
  induction l as [|(f, x) l IH]; intros H; cbn [incs]; [exact Logic.I|]. apply spares_bind.
  - unfold incm. apply spares_bind; [apply spares_getm|]. intros y. apply spares_putm. apply (H (f, x)). now left.
  - intros _. apply IH. intros p Hp. apply H. now right.
Qed.
Lemma spares_vet_cols ns l : spares (vet_cols S ns l).
Proof. unfold vet_cols. induction l as [|x l IH]; cbn [fold_right]; [exact Logic.I|]. apply spares_bind; [|intros; exact IH]. unfold reject. destruct (ne _ _); exact Logic.I. Qed.
Lemma spares_vet_rows l : spares (vet_rows S l).
Proof. unfold vet_rows. induction l as [|x l IH]; cbn [fold_right]; [exact Logic.I|]. apply spares_bind; [|intros; exact IH]. unfold reject. destruct (ne _ _); exact Logic.I. Qed.
End Frame.

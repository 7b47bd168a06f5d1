(** Rules for the writer. *)
From Coq Require Import ZArith List String Bool Lia.
From Verif Require Import Scalar Prog Wp Func Step TrigProof FuncExt Vmec VmecSpec VmecRun Nc NcModel NcSpec NcTri NcRead NcBoozmn.
Import ListNotations.
Local Open Scope Z_scope.

Section Write.
Variable S : Scalar.
Notation obj := (obj S).
Notation world := (world S).
Notation io := (io S).
Notation file := (ncfile S).
Notation F := (F S).
Notation arr := (arr S).

(** What is known of a variable being defined: name, dimensions, units *)
Definition sig : Type := string * list string * option string.
Definition sig_of (v : ncvar S) : sig := (vr_name v, vr_dims v, lookup (vr_atts v) "units").
Definition sname (s : sig) : string := fst (fst s).

(** While file [x] is being written as number [h], the others open being [op]: *)
Variables (x : string) (h : Z) (op : list (Z * hnd S)) (fs : string -> option (disk S)) (q0 : list verdict).
Definition torn (y : string) : option (disk S) := if String.eqb y x then Some Torn else fs y.
Definition wopen (g : file) (w : world) : Prop :=
  wOpen w = (h, Writing x g) :: op /\ Forall (fun p => fst p < h) op /\ wFS w = torn /\ wNext w = h + 1 /\
  (q0 = [] -> wQ w = []).
Definition wst (ds : list (string * Z)) (vs : list sig) (w : world) : Prop :=
  exists g, wopen g w /\ nf_dims g = ds /\ map sig_of (nf_vars g) = vs.

Lemma wopen_same g w w' : wopen g w -> same_but_q w w' -> (wQ w = [] -> wQ w' = []) -> wopen g w'.
Proof.
  intros (H1 & H2 & H3 & H4 & H5) (E1 & E2 & E3 & E4) HQ. unfold wopen. rewrite E2, E3, E4. splits; auto.
Qed.
Lemma wopen_bad g w : wQ w <> [] -> wopen g w -> q0 <> [].
Proof. intros H1 (_ & _ & _ & _ & H) H2. auto. Qed.
Lemma wopen_handle g w : wopen g w -> handle w h = Some (Writing x g).
Proof. intros (H1 & _). unfold handle. rewrite H1. cbn. now rewrite Z.eqb_refl. Qed.
Lemma map_id_on {A} (f : A -> A) l : Forall (fun a => f a = a) l -> map f l = l.
Proof. induction 1; cbn; congruence. Qed.
Lemma wopen_put g g' w : wopen g w -> wopen g' (put_handle w h (Writing x g')).
Proof.
  intros (H1 & H2 & H3 & H4 & H5). unfold wopen, put_handle. cbn. rewrite H1. cbn. rewrite Z.eqb_refl. splits; auto.
  f_equal. apply map_id_on. eapply Forall_impl; [|exact H2]. intros (p & y) Hp. cbn in *.
  destruct (Z.eqb_spec p h); [lia|reflexivity].
Qed.
Lemma wst_O ds vs w o : wst ds vs w -> wst ds vs (setO w o).
Proof. intros (g & H & E). exists g. split; auto. Qed.
Lemma wst_ev ds vs w o ev : wst ds vs w -> wst ds vs (addEv (setO w o) ev).
Proof. intros (g & H & E). exists g. split; auto. Qed.

Section Rules.
Variables (E D : world -> Prop).
(** After a failure or the death of the process *)
Variable ok : obj -> Prop.
Hypothesis HE : forall w, wFS w = torn -> q0 <> [] -> ok (wO w) -> E w.
Hypothesis HD : forall w, wFS w = torn -> q0 <> [] -> ok (wO w) -> D w.

Lemma fail_same {A} g w w' m (k : A -> io unit) : wopen g w -> same_but_q w w' -> wQ w <> [] -> ok (wO w) ->
  (forall B (Q : B -> world -> Prop) (kk : A -> io B), tri (ibind (wchk S (Err m)) kk) w' Q E D) /\ D w'.
Proof.
  intros Hw (E1 & E2 & E3 & E4) Hq Ho. assert (q0 <> []) by (eapply wopen_bad; eauto). split.
  - intros B Q kk. unfold tri, ibind, wchk, ithrow. apply HE; auto; [rewrite E2; apply Hw|congruence].
  - apply HD; auto; [rewrite E2; apply Hw|congruence].
Qed.

Lemma tri_define {A B} (f : file -> code (A * file)) a ds vs ds' vs' w (k : A -> io B) (Q : B -> world -> Prop) :
  wst ds vs w -> ok (wO w) ->
  (forall g, nf_dims g = ds -> map sig_of (nf_vars g) = vs ->
     exists g', f g = Good (a, g') /\ nf_dims g' = ds' /\ map sig_of (nf_vars g') = vs') ->
  (forall w', wst ds' vs' w' -> wO w' = wO w -> tri (k a) w' Q E D) ->
  tri (ibind (define h f) (fun c => ibind (wchk S c) k)) w Q E D.
Proof.
  intros (g & Hg & Ed & Ev) Ho Hf Hk. apply tri_bind. unfold define. apply tri_call.
  - intros w' Hs Hq. assert (Hg' : wopen g w') by (eapply wopen_same; eauto).
    rewrite (wopen_handle g w' Hg'). destruct (Hf g Ed Ev) as (g' & -> & Ed' & Ev').
    apply tri_bind, tri_ret. apply Hk.
    + exists g'. split; auto. eapply wopen_put; eauto.
    + cbn. apply Hs.
  - intros w' m Hs Hq. destruct (fail_same (A := A) g w w' m (fun _ => iret tt) Hg Hs Hq Ho) as (X & Y). split; auto.
Qed.

(** A dimension *)
Lemma tri_wdim {B} regs y n ds vs w (k : unit -> io B) (Q : B -> world -> Prop) :
  wst ds vs w -> ok (wO w) -> 1 <= n <= 2147483644 -> lookup ds y = None ->
  (forall w', wst (ds ++ [(y, n)]) vs w' -> wO w' = wO w -> tri (k tt) w' Q E D) ->
  tri (ibind (wdim S (mkWr h regs) y n) k) w Q E D.
Proof.
  intros Hw Ho Hn Hy Hk. apply tri_bind. unfold wdim, nc_def_dim. cbn [wr_id].
  match goal with |- tri (ibind ?m (fun c => wchk S c)) _ _ _ _ =>
    cut (tri (ibind m (fun c => ibind (wchk S c) (fun a : unit => iret a))) w (fun a w' => tri (k a) w' Q E D) E D) end.
  { unfold tri at 1 3, ibind. destruct (define h _ w) as [[m|[]] w'|m w'|y'|w']; auto. }
  eapply tri_define with (a := tt) (ds' := ds ++ [(y, n)]); [exact Hw|exact Ho| |].
  - intros g Ed Ev. rewrite Ed. destruct (Z.ltb_spec n 0); [lia|]. destruct (Z.ltb_spec 2147483644 n); [lia|]. cbn [orb].
    destruct (Z.eqb_spec n 0); [lia|]. cbn [andb]. rewrite Hy. eexists. split; [reflexivity|]. split; [reflexivity|exact Ev].
  - intros w' H' O'. apply tri_ret. now apply Hk.
Qed.

Definition good_ptr (p : ptr) : Prop :=
  match p with MemN _ 0 | MemA _ 0 | LocN _ 0 | LocA _ 0 => False | _ => True end.
Definition fresh (y : string) (vs : list sig) : Prop := existsb (fun s => String.eqb (sname s) y) vs = false.
Definition dims_ok (ds : list (string * Z)) (dd : list string) : Prop :=
  forallb (fun d => match lookup ds d with Some _ => true | None => false end) dd = true /\
  Forall (fun d => lookup ds d <> Some 0) (tl dd).

Lemma find_none vs y g : map sig_of (nf_vars g) = vs -> fresh y vs -> find_var g y = None.
Proof.
  intros <-. unfold fresh, find_var. induction (nf_vars g) as [|v l IH]; cbn; auto.
  intros H. apply orb_false_iff in H. destruct H as (H1 & H2). unfold sname, sig_of in H1. cbn in H1. rewrite H1. auto.
Qed.
Lemma tri_def_var {B} y dd ty ds vs w (k : unit -> io B) (Q : B -> world -> Prop) :
  wst ds vs w -> ok (wO w) -> fresh y vs -> dims_ok ds dd ->
  (forall w', wst ds (vs ++ [(y, dd, None)]) w' -> wO w' = wO w -> tri (k tt) w' Q E D) ->
  tri (ibind (nc_def_var h y dd ty) (fun c => ibind (wchk S c) k)) w Q E D.
Proof.
  intros Hw Ho Hf (Hd1 & Hd2) Hk. unfold nc_def_var. eapply tri_define with (a := tt); [exact Hw|exact Ho| |exact Hk].
  intros g Ed Ev. rewrite (find_none vs y g Ev Hf), Ed, Hd1.
  replace (existsb _ (tl dd)) with false.
  - eexists. split; [reflexivity|]. split; [reflexivity|]. cbn [nf_vars]. now rewrite map_app, Ev.
  - symmetry. clear Hd1. induction Hd2 as [|d l H1 H2 IH]; cbn; auto. rewrite IH.
    destruct (lookup ds d) as [[| |]|]; auto. contradiction.
Qed.
Lemma lookup_app {T} (l1 l2 : list (string * T)) y :
  lookup (l1 ++ l2) y = match lookup l1 y with Some a => Some a | None => lookup l2 y end.
Proof.
  unfold lookup. induction l1 as [|p l IH]; cbn; [now destruct (find _ l2)|]. destruct (String.eqb (fst p) y); auto.
Qed.
Definition and_units (u : option string) (a t : string) : option string :=
  match u with Some u => Some u | None => if String.eqb a "units" then Some t else None end.
Lemma map_att l vs y dd u a t : map sig_of l = vs ++ [(y, dd, u)] -> fresh y vs ->
  map sig_of (map (fun v => if String.eqb (vr_name v) y then mkVar (vr_name v) (vr_dims v) (vr_atts v ++ [(a, t)]) (vr_val v) else v) l)
    = vs ++ [(y, dd, and_units u a t)].
Proof.
  revert vs. induction l as [|v l IH]; intros vs Ev Hf.
  - destruct vs; discriminate.
  - destruct vs as [|s vs]; cbn in Ev.
    + injection Ev as E1 E2 E3 E4. destruct l; [|discriminate]. cbn. subst. rewrite String.eqb_refl. unfold sig_of. cbn [vr_name vr_dims vr_atts].
      rewrite lookup_app. unfold and_units, lookup at 2. cbn. destruct (lookup _ _), (a =? "units")%string; reflexivity.
    + injection Ev as E1 E2. unfold fresh in Hf. cbn in Hf. apply orb_false_iff in Hf. destruct Hf as (F1 & F2).
      cbn. rewrite <- E1 in F1. unfold sname, sig_of in F1. cbn in F1. rewrite F1. rewrite <- E1. f_equal.
      apply IH; auto.
Qed.
Lemma tri_att {B} y a t ds vs u dd w (k : unit -> io B) (Q : B -> world -> Prop) :
  wst ds (vs ++ [(y, dd, u)]) w -> ok (wO w) -> fresh y vs ->
  (forall w', wst ds (vs ++ [(y, dd, and_units u a t)]) w' -> wO w' = wO w -> tri (k tt) w' Q E D) ->
  tri (ibind (nc_put_att_text h y a t) (fun c => ibind (wchk S c) k)) w Q E D.
Proof.
  intros Hw Ho Hf Hk. unfold nc_put_att_text. eapply tri_define with (a := tt); [exact Hw|exact Ho| |exact Hk].
  intros g Ed Ev. eexists. split; [reflexivity|]. split; [exact Ed|]. cbn [upd_var nf_vars]. now apply map_att.
Qed.
Lemma chk_ret {B} (m : io (code unit)) w (Q : unit -> world -> Prop) (k : unit -> io B) :
  tri (ibind m (fun c => ibind (wchk S c) (fun a => iret a))) w Q E D -> tri (ibind m (fun c => wchk S c)) w Q E D.
Proof. unfold tri, ibind. destruct (m w) as [[e|[]] w'|e w'|e|w']; auto. Qed.
Definition units_of (units : string) : option string := if (0 <? String.length units)%nat then Some units else None.
Lemma tri_attrs {B} regs y att units ds vs dd w (k : unit -> io B) (Q : B -> world -> Prop) :
  wst ds (vs ++ [(y, dd, None)]) w -> ok (wO w) -> fresh y vs ->
  (forall w', wst ds (vs ++ [(y, dd, units_of units)]) w' -> wO w' = wO w -> tri (k tt) w' Q E D) ->
  tri (ibind (add_attribute S (mkWr h regs) y att units) k) w Q E D.
Proof.
  intros Hw Ho Hf Hk. apply tri_bind. unfold add_attribute, units_of in *. cbn [wr_id]. apply tri_bind.
  assert (X : forall w1, wst ds (vs ++ [(y, dd, None)]) w1 -> wO w1 = wO w ->
    tri (if (0 <? String.length units)%nat then ibind (nc_put_att_text h y "units" units) (fun c => wchk S c) else iret tt) w1
      (fun a w' => tri (k a) w' Q E D) E D).
  { intros w1 H1 O1. destruct (0 <? String.length units)%nat.
    - apply (chk_ret (B := B) _ _ _ k). eapply tri_att; [exact H1|now rewrite O1|exact Hf|].
      intros w' H' O'. apply tri_ret. apply Hk; auto. congruence.
    - apply tri_ret. apply Hk; auto. }
  destruct (0 <? String.length att)%nat.
  - apply (chk_ret (B := B) _ _ _ k). eapply tri_att; [exact Hw|exact Ho|exact Hf|].
    intros w' H' O'. apply tri_ret. apply X; auto.
  - apply tri_ret. apply X; auto.
Qed.

(** Registering a variable *)
Lemma tri_put {B} regs y dd ty p att units ds vs w (k : writer -> io B) (Q : B -> world -> Prop) :
  wst ds vs w -> ok (wO w) -> fresh y vs -> dims_ok ds dd -> good_ptr p ->
  (forall w', wst ds (vs ++ [(y, dd, units_of units)]) w' -> wO w' = wO w ->
     tri (k (mkWr h (regs ++ [(y, p)]))) w' Q E D) ->
  tri (ibind (put S (mkWr h regs) dd y ty p att units) k) w Q E D.
Proof.
  intros Hw Ho Hf Hd Hp Hk. apply tri_bind. unfold put. cbn [wr_id wr_regs].
  eapply tri_def_var; [exact Hw|exact Ho|exact Hf|exact Hd|]. intros w1 H1 O1. apply tri_bind.
  match goal with |- tri ?m _ _ _ _ => replace m with (@iret S unit tt) end.
  2:{ destruct p as [| |? n|? n| | |? n|? n|]; auto; destruct n; auto; contradiction. }
  apply tri_ret. eapply tri_attrs; [exact H1|now rewrite O1|exact Hf|]. intros w2 H2 O2. apply tri_ret. apply Hk; auto. congruence.
Qed.
Lemma tri_put_string {B} regs y nm s att ds vs w (k : writer -> io B) (Q : B -> world -> Prop) :
  let len := Z.of_nat (String.length s) in let dm := dim_str (String.length s) in
  wst ds vs w -> ok (wO w) -> fresh y vs -> lookup ds dm = None -> 1 <= len <= 2147483644 ->
  (forall w', wst (ds ++ [(dm, len)]) (vs ++ [(y, [dm], None)]) w' -> wO w' = wO w ->
     tri (k (mkWr h (regs ++ [(y, LocS nm len)]))) w' Q E D) ->
  tri (ibind (put_string S (mkWr h regs) y nm s att) k) w Q E D.
Proof.
  intros len dm Hw Ho Hf Hd Hl Hk. apply tri_bind. unfold put_string. cbn [wr_id wr_regs]. fold dm. fold len.
  clearbody len dm. apply tri_bind.
  assert (X : forall w1, wst ds vs w1 -> wO w1 = wO w ->
    tri (ibind (nc_def_dim h dm len) (fun c => wchk S c)) w1 (fun _ w' => wst (ds ++ [(dm, len)]) vs w' /\ wO w' = wO w) E D).
  { intros w1 H1 O1. apply tri_unbind.
    apply (tri_wdim [] dm len ds vs w1 (fun u => iret u) _ H1); auto.
    - now rewrite O1.
    - intros w' H' O'. apply tri_ret. split; auto. congruence. }
  assert (Y : forall w1, wst (ds ++ [(dm, len)]) vs w1 /\ wO w1 = wO w ->
    tri (ibind (nc_def_var h y [dm] (VChar "")) (fun c => ibind (wchk S c) (fun _ =>
      ibind (add_attribute S (mkWr h regs) y att "") (fun _ => iret (mkWr h (regs ++ [(y, LocS nm len)])))))) w1
      (fun a w' => tri (k a) w' Q E D) E D).
  { intros w1 (H1 & O1). eapply tri_def_var; [exact H1|now rewrite O1|exact Hf| |].
    - split; [|constructor]. cbn. rewrite lookup_app, Hd. unfold lookup. cbn. now rewrite String.eqb_refl.
    - intros w2 H2 O2. eapply tri_attrs; [exact H2|rewrite O2, O1; exact Ho|exact Hf|]. intros w3 H3 O3. apply tri_ret.
      apply Hk; auto. congruence. }
  destruct Hw as (g & Hg & Ed & Ev). apply tri_call.
  - intros w1 Hs Hq. assert (Hg' : wopen g w1) by (eapply wopen_same; eauto).
    unfold contents. rewrite (wopen_handle g w1 Hg'), Ed, Hd. apply tri_bind.
    eapply tri_mono; [| | |apply X]; [|intros w2 H2; exact H2|intros w2 H2; exact H2| |].
    + intros [] w2 H2. apply Y, H2.
    + exists g. auto.
    + apply Hs.
  - intros w1 m Hs Hq. assert (Hb : q0 <> []) by (eapply wopen_bad; eauto). destruct Hs as (O1 & F1 & P1 & N1). split.
    + apply tri_bind. eapply tri_mono; [| | |apply X]; [|intros w2 H2; exact H2|intros w2 H2; exact H2| |].
      * intros [] w2 H2. apply Y, H2.
      * exists g. split; [|auto]. eapply wopen_same; eauto; [repeat split; auto|]. intros; contradiction.
      * exact O1.
    + apply HD; [rewrite F1; apply Hg|exact Hb|now rewrite O1].
Qed.

(** Steps on the object *)
Lemma tri_lift_w {A B} (p : prog S A) ds vs w (k : A -> io B) (Q : B -> world -> Prop) :
  wst ds vs w ->
  wp fp_any p (wO w) (fun a o _ => forall w', wst ds vs w' -> wO w' = o -> tri (k a) w' Q E D) ->
  tri (ibind (lift p) k) w Q E D.
Proof.
  intros R W. apply tri_bind, tri_lift. eapply wp_mono; [|exact W]. cbv beta. intros a o ev H. apply H; auto.
Qed.

(** write_and_close *)
Definition set_val (v : ncvar S) (y : ncval S) : ncvar S := mkVar (vr_name v) (vr_dims v) (vr_atts v) y.
Definition nsize (ds : list (string * Z)) (dd : list string) : Z :=
  fold_right (fun d n => match lookup ds d with Some m => m * n | None => 0 end) 1 dd.
Lemma upd_mid ds v1 v2 (v : ncvar S) y :
  NoDup (map vr_name (v1 ++ v :: v2)) ->
  upd_var (mkFile ds (v1 ++ v :: v2)) (vr_name v) (fun v => mkVar (vr_name v) (vr_dims v) (vr_atts v) y)
    = mkFile ds ((v1 ++ [set_val v y]) ++ v2).
Proof.
  intros H. unfold upd_var. cbn. f_equal. rewrite <- app_assoc, map_app. cbn [map app]. rewrite String.eqb_refl.
  rewrite map_app in H. cbn in H. apply NoDup_remove_2 in H. rewrite <- map_app in H.
  assert (X : forall l, (forall u, In u l -> In u (v1 ++ v2)) ->
    map (fun u => if String.eqb (vr_name u) (vr_name v) then mkVar (vr_name u) (vr_dims u) (vr_atts u) y else u) l = l).
  { intros l Hl. apply map_id_on. apply Forall_forall. intros u Hu. destruct (String.eqb_spec (vr_name u) (vr_name v)); auto.
    destruct H. rewrite <- e. apply in_map. auto. }
  rewrite (X v1), (X v2); auto; intros; apply in_or_app; auto.
Qed.
Lemma find_mid ds v1 v2 (v : ncvar S) :
  NoDup (map vr_name (v1 ++ v :: v2)) -> find_var (mkFile ds (v1 ++ v :: v2)) (vr_name v) = Some v.
Proof.
  unfold find_var. cbn. induction v1 as [|u l IH]; cbn; intros H.
  - now rewrite String.eqb_refl.
  - inversion H as [|a b H1 H2]; subst. destruct (String.eqb_spec (vr_name u) (vr_name v)); auto.
    destruct H1. rewrite e, map_app. apply in_or_app. right. now left.
Qed.
Lemma tri_put_all env o l ds : forall v1 v2 ys w (Q : unit -> world -> Prop),
  wopen (mkFile ds (v1 ++ v2)) w -> wO w = o -> ok o -> NoDup (map vr_name (v1 ++ v2)) ->
  map fst l = map vr_name v2 ->
  Forall2 (fun p y => forall w', wO w' = o -> deref S env (fst p) w' (nsize ds (snd p)) = Some y)
    (combine (map snd l) (map vr_dims v2)) ys ->
  (forall w', wopen (mkFile ds (v1 ++ map (fun p => set_val (fst p) (snd p)) (combine v2 ys))) w' -> wO w' = o -> Q tt w') ->
  tri (put_all S h env l) w Q E D.
Proof.
  induction l as [|(y, p) l IH]; intros v1 v2 ys w Q Hw Ho Hok Hn Hl Hy Hk.
  - destruct v2; [|discriminate]. cbn in Hy. inversion Hy; subst. apply tri_ret. apply Hk; auto.
  - destruct v2 as [|v v2]; [discriminate|]. cbn in Hl. injection Hl as -> Hl. cbn in Hy. inversion Hy as [|a b c d Hy1 Hy2]; subst.
    cbn [put_all]. apply tri_bind. unfold nc_put_var. apply tri_call.
    + intros w1 Hs Hq. assert (H1 : wopen (mkFile ds (v1 ++ v :: v2)) w1) by (eapply wopen_same; eauto).
      rewrite (wopen_handle _ w1 H1). rewrite find_mid by auto. unfold vlen. cbn [nf_dims]. fold (nsize ds (vr_dims v)).
      cbn [fst snd] in Hy1. rewrite Hy1 by apply Hs. apply tri_bind, tri_ret.
      rewrite upd_mid by auto. eapply IH with (v1 := v1 ++ [set_val v b]) (v2 := v2) (ys := d).
      * eapply wopen_put; eauto.
      * cbn. apply Hs.
      * auto.
      * rewrite <- app_assoc. rewrite map_app in *. cbn in *. exact Hn.
      * exact Hl.
      * exact Hy2.
      * intros w' H' O'. apply Hk; auto. rewrite <- app_assoc in H'. exact H'.
    + intros w1 m Hs Hq. destruct (fail_same (A := unit) _ w w1 m (fun _ => iret tt) Hw Hs Hq Hok) as (X & Y). split; auto.
Qed.
Lemma forall2_length {A B} (R : A -> B -> Prop) l1 l2 : Forall2 R l1 l2 -> List.length l1 = List.length l2.
Proof. induction 1; cbn; congruence. Qed.
Lemma tri_write_and_close env regs ds vs ys w (Q : unit -> world -> Prop) :
  wst ds vs w -> ok (wO w) -> NoDup (map sname vs) -> map fst regs = map sname vs ->
  Forall2 (fun p y => forall w', wO w' = wO w -> deref S env (fst p) w' (nsize ds (snd p)) = Some y)
    (combine (map snd regs) (map (fun s => snd (fst s)) vs)) ys ->
  (forall w', wOpen w' = op -> wNext w' = h + 1 -> wO w' = wO w -> (q0 = [] -> wQ w' = []) ->
     (exists f', wFS w' x = Some (Whole f') /\ nf_dims f' = ds /\ map sig_of (nf_vars f') = vs /\ map vr_val (nf_vars f') = ys) ->
     (forall y, y <> x -> wFS w' y = fs y) -> Q tt w') ->
  tri (write_and_close S (mkWr h regs) env) w Q E D.
Proof.
  intros (g & Hg & Ed & Ev) Ho Hn Hr Hy Hk. unfold write_and_close. cbn [wr_id wr_regs]. apply tri_bind. apply tri_call.
  2:{ intros w1 m Hs Hq. destruct (fail_same (A := unit) _ w w1 m (fun _ => iret tt) Hg Hs Hq Ho) as (X & Y). split; auto. }
  intros w1 Hs Hq. apply tri_bind, tri_ret. assert (H1 : wopen g w1) by (eapply wopen_same; eauto).
  assert (Eo : wO w1 = wO w) by apply Hs. clear Hs Hq.
  assert (Nm : map vr_name (nf_vars g) = map sname vs) by (rewrite <- Ev, map_map; reflexivity).
  assert (Dm : map vr_dims (nf_vars g) = map (fun s => snd (fst s)) vs) by (rewrite <- Ev, map_map; reflexivity).
  apply tri_bind. destruct g as [gd gv]. cbn [nf_dims nf_vars] in *. subst gd.
  eapply tri_put_all with (v1 := []) (v2 := gv) (ys := ys) (o := wO w); [exact H1|exact Eo|exact Ho|cbn; congruence|congruence|rewrite Dm; exact Hy|].
  assert (Ly : List.length gv = List.length ys).
  { apply forall2_length in Hy. rewrite combine_length, !map_length in Hy.
    assert (List.length regs = List.length vs) as Lr by (rewrite <- (map_length fst regs), Hr, map_length; reflexivity).
    assert (List.length gv = List.length vs) as Lg by (rewrite <- (map_length sig_of gv), Ev; reflexivity).
    transitivity (List.length vs); [exact Lg|]. rewrite <- Hy, Lr. symmetry. apply Nat.min_id. }
  cbn [app]. intros w2 H2 O2. apply tri_bind. apply tri_call.
  2:{ intros w3 m Hs Hq. destruct (fail_same (A := unit) _ w2 w3 m (fun _ => iret tt) H2 Hs Hq ltac:(now rewrite O2)) as (X & Y).
      split; [|exact Y]. apply tri_unbind, X. }
  intros w3 Hs Hq. assert (H3 : wopen _ w3) by (eapply wopen_same; [exact H2|exact Hs|exact Hq]).
  rewrite (wopen_handle _ w3 H3). pose proof H3 as (P1 & P2 & P3 & P4 & P5). cbn [wchk]. apply tri_ret. apply Hk; auto.
  - cbn. rewrite P1. cbn. rewrite Z.eqb_refl. cbn. apply filter_none. eapply Forall_impl; [|exact P2].
    intros (p & u) Hp. cbn in *. destruct (Z.eqb_spec p h); [lia|reflexivity].
  - cbn. rewrite <- O2. apply Hs.
  - eexists. cbn. rewrite String.eqb_refl. splits; [reflexivity|reflexivity| |]; cbn [nf_vars].
    + rewrite <- Ev. rewrite map_map. clear - Ly. revert ys Ly. induction gv as [|v l IH]; intros [|y ys]; cbn; auto; try discriminate.
      intros L. f_equal. apply IH. lia.
    + rewrite map_map. clear - Ly. revert ys Ly. induction gv as [|v l IH]; intros [|y ys]; cbn; auto; try discriminate.
      intros L. f_equal. apply IH. lia.
  - intros y Hyx. cbn. destruct (String.eqb_spec y x); [contradiction|]. rewrite P3. unfold torn.
    destruct (String.eqb_spec y x); [contradiction|reflexivity].
Qed.

(** put for members and local variables *)
Lemma good_N f n : n <> 0 -> good_ptr (MemN f n). Proof. destruct n; cbn; auto. Qed.
Lemma good_A f n : n <> 0 -> good_ptr (MemA f n). Proof. destruct n; cbn; auto. Qed.
Lemma good_LN y n : n <> 0 -> good_ptr (LocN y n). Proof. destruct n; cbn; auto. Qed.
Lemma good_LA y n : n <> 0 -> good_ptr (LocA y n). Proof. destruct n; cbn; auto. Qed.
Lemma tri_put_ints {B} regs dd y f att units n ds vs w (k : writer -> io B) (Q : B -> world -> Prop) :
  wst ds vs w -> ok (wO w) -> fresh y vs -> dims_ok ds dd -> asize (oN (wO w) f) = n -> n <> 0 ->
  (forall w', wst ds (vs ++ [(y, dd, units_of units)]) w' -> wO w' = wO w ->
     tri (k (mkWr h (regs ++ [(y, MemN f n)]))) w' Q E D) ->
  tri (ibind (put_ints S (mkWr h regs) dd y f att units) k) w Q E D.
Proof.
  intros Hw Ho Hf Hd Hn Hz Hk. apply tri_bind. unfold put_ints. apply tri_bind, tri_obj. rewrite Hn. apply tri_unbind.
  eapply tri_put; [exact Hw|exact Ho|exact Hf|exact Hd|now apply good_N|]. intros w' H' O'. apply tri_ret. auto.
Qed.
Lemma tri_put_arr {B} regs dd y f att units n ds vs w (k : writer -> io B) (Q : B -> world -> Prop) :
  wst ds vs w -> ok (wO w) -> fresh y vs -> dims_ok ds dd -> asize (oA (wO w) f) = n -> n <> 0 ->
  (forall w', wst ds (vs ++ [(y, dd, units_of units)]) w' -> wO w' = wO w ->
     tri (k (mkWr h (regs ++ [(y, MemA f n)]))) w' Q E D) ->
  tri (ibind (put_arr S (mkWr h regs) dd y f att units) k) w Q E D.
Proof.
  intros Hw Ho Hf Hd Hn Hz Hk. apply tri_bind. unfold put_arr. apply tri_bind, tri_obj. rewrite Hn. apply tri_unbind.
  eapply tri_put; [exact Hw|exact Ho|exact Hf|exact Hd|now apply good_A|]. intros w' H' O'. apply tri_ret. auto.
Qed.
Lemma mat_inside {T} (a : array T) r c g : mat_is a r c g -> 1 <= r -> 1 <= c -> inside 0 0 (arows a) (acols a) = true /\ asize a = r * c.
Proof.
  intros (_ & _ & H1 & H2 & _) Hr Hc. unfold asize. rewrite H1, H2. split; [apply inside_true; lia|reflexivity].
Qed.
Lemma tri_put_mat {B} regs y f att units r c g ds vs w (k : writer -> io B) (Q : B -> world -> Prop) :
  wst ds vs w -> ok (wO w) -> fresh y vs -> dims_ok ds ["pack_rad"; "mn_modes"]%string ->
  mat_is (oA (wO w) f) r c g -> 1 <= r -> 1 <= c ->
  (forall w', wst ds (vs ++ [(y, ["pack_rad"; "mn_modes"]%string, units_of units)]) w' -> wO w' = wO w ->
     tri (k (mkWr h (regs ++ [(y, MemA f (r * c))]))) w' Q E D) ->
  tri (ibind (put_mat S (mkWr h regs) y f att units) k) w Q E D.
Proof.
  intros Hw Ho Hf Hd Hm Hr Hc Hk. apply tri_bind. unfold put_mat. apply tri_bind, tri_obj.
  destruct (mat_inside _ _ _ _ Hm Hr Hc) as (-> & ->). apply tri_bind, tri_ret. apply tri_unbind.
  eapply tri_put; [exact Hw|exact Ho|exact Hf|exact Hd|apply good_A; nia|]. intros w' H' O'. apply tri_ret. auto.
Qed.
Lemma tri_put_local_mat {B} regs y a att units r c g ds vs w (k : writer -> io B) (Q : B -> world -> Prop) :
  wst ds vs w -> ok (wO w) -> fresh y vs -> dims_ok ds ["pack_rad"; "mn_modes"]%string ->
  mat_is a r c g -> 1 <= r -> 1 <= c ->
  (forall w', wst ds (vs ++ [(y, ["pack_rad"; "mn_modes"]%string, units_of units)]) w' -> wO w' = wO w ->
     tri (k (mkWr h (regs ++ [(y, LocA y (r * c))]))) w' Q E D) ->
  tri (ibind (put_local_mat S (mkWr h regs) y a att units) k) w Q E D.
Proof.
  intros Hw Ho Hf Hd Hm Hr Hc Hk. apply tri_bind. unfold put_local_mat.
  destruct (mat_inside _ _ _ _ Hm Hr Hc) as (-> & ->). apply tri_bind, tri_ret. apply tri_unbind.
  eapply tri_put; [exact Hw|exact Ho|exact Hf|exact Hd|apply good_LA; nia|]. intros w' H' O'. apply tri_ret. auto.
Qed.

(** Local arrays *)
Lemma tri_prepend {B} f n g ds vs w (k : arr -> io B) (Q : B -> world -> Prop) :
  wst ds vs w -> vec_is (oA (wO w) f) n g -> 0 <= n < INT_MAX ->
  (forall a w', wst ds vs w' -> wO w' = wO w -> vec_is a (n + 1) (fun j => if j =? 0 then fofZ S 0 else g (j - 1)) ->
     tri (k a) w' Q E D) ->
  tri (ibind (prepend_zero S f n) k) w Q E D.
Proof.
  intros Hw Hv Hn Hk. apply tri_bind. unfold prepend_zero. eapply tri_lift_w; [exact Hw|].
  apply wp_unbind. apply wp_iadd; [unfold INT_MIN, INT_MAX in *; lia|]. cbn [wp]; cbv beta. intros w1 H1 O1.
  unfold new_vec. eapply tri_lift_w; [exact H1|]. apply wp_unbind. apply wp_resize; [apply wf_empty_vec|lia|lia|].
  intros a A1 A2 A3. cbn [wp]; cbv beta. intros w2 H2 O2. apply tri_unbind. eapply tri_lift_w; [exact H2|].
  rewrite O2, O1.
  assert (A0 : part a (n + 1) 1 (fun _ _ => False) (fun _ _ => fofZ S 0)).
  { apply part_none. unfold shp. splits; auto; lia. }
  eapply wp_bind0 with (R := fun a' o' => o' = wO w /\ part a' (n + 1) 1 (fun k _ => k = 0) (fun _ _ => fofZ S 0)).
  { eapply wp_vset_part1; [exact A0|lia|]. intros a' P'. splits; auto.
    eapply part_mono; [|exact P']. cbv beta. intros i j Hi Hj ->. split; [lia|]. now destruct (_ && _). }
  intros a' o' (-> & P').
  eapply wp_mono; [|eapply wp_for_pure with (Inv := fun i a => part a (n + 1) 1 (fun k _ => k <= i)
    (fun j _ => if j =? 0 then fofZ S 0 else g (j - 1)))].
  - cbv beta. intros b o' ev (-> & -> & P2). intros w3 H3 O3. apply tri_ret. apply Hk; [exact H3|congruence|].
    apply (part_vec _ _ _ _) in P2; [exact P2|]. intros; lia.
  - lia.
  - eapply part_mono; [|exact P']. cbv beta. intros i j Hi Hj H. split; [lia|]. destruct (Z.eqb_spec i 0); auto; lia.
  - intros i b Hi Pb. eapply wp_getv; [exact Hv|lia|exact Logic.I|].
    eapply wp_vset_part1; [exact Pb|lia|]. intros b' Pb'. splits; auto.
    eapply part_mono; [|exact Pb']. cbv beta. intros i0 j Hi0 Hj H. split; [lia|].
    destruct (Z.eqb_spec i0 (i + 1)), (Z.eqb_spec i0 0), (Z.eqb_spec j 0); subst; cbn; auto; try lia. f_equal. lia.
Qed.
Lemma tri_zero_vec {B} n ds vs w (k : arr -> io B) (Q : B -> world -> Prop) :
  wst ds vs w -> 0 <= n ->
  (forall a w', wst ds vs w' -> wO w' = wO w -> vec_is a n (fun _ => fofZ S 0) -> tri (k a) w' Q E D) ->
  tri (ibind (zero_vec S n) k) w Q E D.
Proof.
  intros Hw Hn Hk. unfold zero_vec. eapply tri_lift_w; [exact Hw|]. apply wp_unbind. apply wp_zerosv; [lia|].
  intros a Ha. cbn [wp]. cbv beta. auto.
Qed.
Definition unset (a : arr) (n : Z) : Prop :=
  asize a = n /\ Z.of_nat (List.length (adata a)) = n /\ Forall (fun c => c = None) (adata a).
Lemma tri_new_vec {B} n ds vs w (k : arr -> io B) (Q : B -> world -> Prop) :
  wst ds vs w -> 1 <= n ->
  (forall a w', wst ds vs w' -> wO w' = wO w -> unset a n -> tri (k a) w' Q E D) ->
  tri (ibind (new_vec S n) k) w Q E D.
Proof.
  intros Hw Hn Hk. unfold new_vec. eapply tri_lift_w; [exact Hw|]. unfold resize.
  destruct (Z.ltb_spec n 0); [lia|]. cbn [orb Z.ltb Z.compare]. destruct (Z.eqb_spec (n * 1) (asize (@empty_vec F))) as [X|X]; [cbv [asize empty_vec arows acols] in X; lia|].
  cbn [wp]. cbv beta. intros w' H' O'. apply Hk; auto. unfold unset, asize. cbn [arows acols adata]. splits.
  - lia.
  - unfold zrepeat. rewrite repeat_length. lia.
  - apply Forall_forall. intros c Hc. apply repeat_spec in Hc. exact Hc.
Qed.
Lemma tri_jlist {B} n c (l : Z -> Z) ds vs w (k : narr -> io B) (Q : B -> world -> Prop) :
  wst ds vs w -> vec_is (oN (wO w) N_compute_surfs) n c -> 0 <= n ->
  (forall j, 0 <= j < n -> l j = c j + 2 /\ INT_MIN <= l j <= INT_MAX) ->
  (forall a w', wst ds vs w' -> wO w' = wO w -> vec_is a n l -> tri (k a) w' Q E D) ->
  tri (ibind (lift (bind (resize empty_vec n 1) (fun a =>
    for_ 0 n a (fun j a => bind (getn N_compute_surfs j) (fun x => bind (iadd x 2) (fun y => vset a j y)))))) k) w Q E D.
Proof.
  intros Hw Hv Hn Hl Hk. eapply tri_lift_w; [exact Hw|]. apply wp_resize; [apply wf_empty_vec|lia|lia|].
  intros a A1 A2 A3.
  assert (A0 : part a n 1 (fun _ _ => False) (fun i _ => l i)).
  { apply part_none. unfold shp. splits; auto; lia. }
  eapply wp_mono; [|eapply wp_for_pure with (Inv := fun i a => part a n 1 (fun k _ => k < i) (fun j _ => l j))].
  - cbv beta. intros b o' ev (-> & -> & P2). intros w3 H3 O3. apply Hk; [exact H3|congruence|].
    apply (part_vec _ _ _ _) in P2; [exact P2|]. intros; lia.
  - lia.
  - eapply part_mono; [|exact A0]. cbv beta. intros i j Hi Hj H. lia.
  - intros i b Hi Pb. eapply wp_getn; [exact Hv|lia|]. destruct (Hl i Hi) as (L1 & L2).
    apply wp_iadd; [lia|]. rewrite <- L1.
    eapply wp_vset_part1; [exact Pb|lia|]. intros b' Pb'. splits; auto.
    eapply part_mono; [|exact Pb']. cbv beta. intros i0 j Hi0 Hj H. split; [lia|].
    destruct (Z.eqb_spec i0 i), (Z.eqb_spec j 0); subst; cbn; auto; try lia.
Qed.
Lemma tri_neg {B} f r c g ds vs w (k : arr -> io B) (Q : B -> world -> Prop) :
  wst ds vs w -> mat_is (oA (wO w) f) r c g ->
  (forall a w', wst ds vs w' -> wO w' = wO w -> mat_is a r c (fun i j => fneg S (g i j)) -> tri (k a) w' Q E D) ->
  tri (ibind (lift (bind (getarr f) (neg_arr S))) k) w Q E D.
Proof.
  intros Hw Hm Hk. eapply tri_lift_w; [exact Hw|]. apply wp_getarr; [exact Logic.I|]. apply wp_unbind.
  eapply wp_neg_arr; [exact Hm|]. intros b Hb. cbn [wp]. cbv beta. auto.
Qed.

(** The values written *)
Lemma block_all {T} (a : array T) sz m : asize a = sz -> Z.of_nat (List.length (adata a)) = sz -> m = sz -> block a sz m = Some (adata a).
Proof.
  intros H1 H2 ->. unfold block. rewrite H1, Z.eqb_refl, Z.leb_refl. cbn. f_equal. rewrite <- H2, Nat2Z.id. apply firstn_all.
Qed.
Lemma substring_all s : substring 0 (String.length s) s = s.
Proof. induction s as [|a s IH]; cbn; [reflexivity|]. now rewrite IH. Qed.
Lemma d_I env f o w m : wO w = o -> m = 1 -> deref S env (MemI f) w m = Some (VInt [oI o f]).
Proof. intros <- ->. reflexivity. Qed.
Lemma d_F env f o w m : wO w = o -> m = 1 -> deref S env (MemF f) w m = Some (VDbl [oF o f]).
Proof. intros <- ->. reflexivity. Qed.
Lemma d_N env f sz o w m g : wO w = o -> vec_is (oN o f) sz g -> m = sz -> deref S env (MemN f sz) w m = Some (VInt (adata (oN o f))).
Proof. intros <- H ->. cbn. rewrite block_all; auto; [now apply vec_is_asize in H|apply H]. Qed.
Lemma d_A env f sz o w m g : wO w = o -> vec_is (oA o f) sz g -> m = sz -> deref S env (MemA f sz) w m = Some (VDbl (adata (oA o f))).
Proof. intros <- H ->. cbn. rewrite block_all; auto; [now apply vec_is_asize in H|apply H]. Qed.
Lemma d_M env f r c o w m g : wO w = o -> mat_is (oA o f) r c g -> m = r * c -> deref S env (MemA f (r * c)) w m = Some (VDbl (adata (oA o f))).
Proof. intros <- (_ & _ & H1 & H2 & H3 & _) ->. cbn. rewrite block_all; auto. unfold asize. congruence. Qed.
Lemma d_LI env y v w m : lookup env y = Some (LI S v) -> m = 1 -> deref S env (LocI y) w m = Some (VInt [Some v]).
Proof. intros H ->. cbn. now rewrite H. Qed.
Lemma d_LF env y v w m : lookup env y = Some (LF S v) -> m = 1 -> deref S env (LocF y) w m = Some (VDbl [Some v]).
Proof. intros H ->. cbn. now rewrite H. Qed.
Lemma d_LN env y sz a g w m : lookup env y = Some (LN S a) -> vec_is a sz g -> m = sz -> deref S env (LocN y sz) w m = Some (VInt (adata a)).
Proof. intros H Ha ->. cbn. rewrite H, block_all; auto; [now apply vec_is_asize in Ha|apply Ha]. Qed.
Lemma d_LA env y sz a g w m : lookup env y = Some (LA S a) -> vec_is a sz g -> m = sz -> deref S env (LocA y sz) w m = Some (VDbl (adata a)).
Proof. intros H Ha ->. cbn. rewrite H, block_all; auto; [now apply vec_is_asize in Ha|apply Ha]. Qed.
Lemma d_LU env y sz a w m : lookup env y = Some (LA S a) -> unset a sz -> m = sz -> deref S env (LocA y sz) w m = Some (VDbl (adata a)).
Proof. intros H (A1 & A2 & _) ->. cbn. rewrite H, block_all; auto. Qed.
Lemma d_LM env y r c a g w m : lookup env y = Some (LA S a) -> mat_is a r c g -> m = r * c -> deref S env (LocA y (r * c)) w m = Some (VDbl (adata a)).
Proof. intros H (_ & _ & H1 & H2 & H3 & _) ->. cbn. rewrite H, block_all; auto. unfold asize. congruence. Qed.
Lemma d_LS env y s w m : lookup env y = Some (LS S s) -> m = Z.of_nat (String.length s) ->
  deref S env (LocS y (Z.of_nat (String.length s))) w m = Some (VChar s).
Proof. intros H ->. cbn. rewrite H, Z.eqb_refl, Z.leb_refl. cbn. rewrite Nat2Z.id. now rewrite substring_all. Qed.

(** Looking a value up in the file *)
Lemma find_val (l : list (ncvar S)) y :
  option_map vr_val (find (fun v => String.eqb (vr_name v) y) l) = lookup (combine (map sname (map sig_of l)) (map vr_val l)) y.
Proof.
  unfold lookup. induction l as [|v l IH]; cbn; auto. unfold sname at 1. cbn. destruct (String.eqb (vr_name v) y); auto.
Qed.
End Rules.
End Write.

(** write_boozmn after compute_surfs was edited by hand. *)
From Coq Require Import ZArith List String Bool Lia.
From Verif Require Import Scalar Prog Model Wp Func Step TrigProof InitProof RunProof Par FuncExt Spec RunThms
  Vmec VmecSpec VmecRun VmecThms Nc NcModel NcSpec NcTri NcRead NcBoozmn NcWout NcWrite NcWriteB NcVoc NcThms.
Import ListNotations.
Local Open Scope Z_scope.

Section Edit.
Variable S : Scalar.
Notation obj := (obj S).
Notation world := (world S).
Notation io := (io S).
Notation file := (ncfile S).
Notation F := (F S).
Notation arr := (arr S).

Lemma via {A B} (R : ires S B -> Prop) (m : io A) (k : A -> io B) w :
  tri (ibind m (fun a => iret a)) w (fun a w' => R (k a w')) (fun _ => False) (fun _ => False) -> R (ibind m k w).
Proof. unfold tri, ibind, iret. destruct (m w); tauto. Qed.
Lemma via_assoc {A B C} (R : ires S C -> Prop) (m : io A) (k : A -> io B) (l : B -> io C) w :
  R (ibind m (fun a => ibind (k a) l) w) -> R (ibind (ibind m k) l w).
Proof. unfold ibind. destruct (m w); auto. Qed.
Lemma via_ret {A B} (R : ires S B -> Prop) (a : A) (k : A -> io B) w : R (k a w) -> R (ibind (iret a) k w).
Proof. auto. Qed.
Definition ub {A} (r : ires S A) : Prop := exists why, r = IUB why.


(** The jlist loop when compute_surfs is shorter than ns_b *)
Lemma loop_short (o : obj) n c : vec_is (oN o N_compute_surfs) n c -> (forall j, 0 <= j < n -> INT_MIN <= c j + 2 <= INT_MAX) ->
  forall m j (a : narr), n < Z.of_nat m + j -> 0 <= j <= n -> Z.of_nat (List.length (adata a)) = Z.of_nat m + j ->
  exists why, run (S := S) (for_from m j a (fun j a => bind (getn N_compute_surfs j) (fun x => bind (iadd x 2) (fun y => vset a j y)))) o = RUB why.
Proof.
  intros Hv Hc.
  match goal with |- context [for_from _ _ _ ?b] => set (body := b) end.
  assert (Eb : forall j a, body j a = bind (getn N_compute_surfs j) (fun x => bind (iadd x 2) (fun y => vset a j y))) by reflexivity.
  clearbody body. induction m as [|m IH]; intros j a H1 H2 Ha; [lia|]. destruct Hv as (V1 & V2 & V3 & V4).
  cbn [for_from]. rewrite bind_run, Eb. cbn [getn bind run]. destruct (Z.eq_dec j n) as [->|Hj].
  - assert (E : znth (adata (oN o N_compute_surfs)) n = None) by (apply znth_None; lia). rewrite E. eauto.
  - rewrite V4 by lia. unfold iadd, int_. rewrite in_int_true by (apply Hc; lia). cbn [run bind].
    unfold vset at 1. destruct (znth (adata a) j) as [b|] eqn:E; [|exfalso; apply znth_None in E; lia].
    cbn [run]. destruct (IH (j + 1) (aput a j (c j + 2))) as (why & E').
    + lia.
    + lia.
    + cbn [aput adata]. rewrite zset_length. lia.
    + rewrite E'. eauto.
Qed.
Lemma lift_ub {A B} (p : prog S A) (k : A -> io B) w why : run p (wO w) = RUB why -> ub (ibind (lift p) k w).
Proof. intros H. unfold ub, ibind, lift. rewrite H. eauto. Qed.
Lemma jlist_short {B} m n c w (k : narr -> io B) : vec_is (oN (wO w) N_compute_surfs) n c -> n < m ->
  (forall j, 0 <= j < n -> INT_MIN <= c j + 2 <= INT_MAX) ->
  ub (ibind (lift (bind (resize empty_vec m 1) (fun a =>
    for_ 0 m a (fun j a => bind (getn N_compute_surfs j) (fun x => bind (iadd x 2) (fun y => vset a j y)))))) k w).
Proof.
  intros Hv Hm Hc.
  assert (Hn : 0 <= n) by (destruct Hv as (_ & _ & V & _); lia).
  assert (X : exists why, run (S := S) (bind (resize empty_vec m 1) (fun a =>
    for_ 0 m a (fun j a => bind (getn N_compute_surfs j) (fun x => bind (iadd x 2) (fun y => vset a j y))))) (wO w) = RUB why).
  { rewrite bind_run. unfold resize. destruct (Z.ltb_spec m 0); [lia|]. cbn [orb Z.ltb Z.compare].
    destruct (Z.eqb_spec (m * 1) (asize (@empty_vec Z))) as [E|E]; [cbv [asize empty_vec arows acols] in E; lia|]. cbn [run].
    change (1 <? 0) with false. cbn [run]. unfold for_. rewrite Z.sub_0_r.
    match goal with |- context [for_from _ _ ?a _] => destruct (loop_short (wO w) n c Hv Hc (Z.to_nat m) 0 a) as (why & E') end.
    - lia.
    - lia.
    - cbn [adata]. unfold zrepeat. rewrite repeat_length. lia.
    - unfold narr in E'. rewrite E'. eauto. }
  destruct X as (why & X). eapply lift_ub; eauto.
Qed.
Lemma tri_jlist_long {B} x h op fs (E D : world -> Prop) m n c (l : Z -> Z) ds vs w (k : narr -> io B) (Q : B -> world -> Prop) :
  wst S x h op fs [] ds vs w -> vec_is (oN (wO w) N_compute_surfs) n c -> 0 <= m <= n ->
  (forall j, 0 <= j < m -> l j = c j + 2 /\ INT_MIN <= l j <= INT_MAX) ->
  (forall a w', wst S x h op fs [] ds vs w' -> wO w' = wO w -> vec_is a m l -> tri (k a) w' Q E D) ->
  tri (ibind (lift (bind (resize empty_vec m 1) (fun a =>
    for_ 0 m a (fun j a => bind (getn N_compute_surfs j) (fun x => bind (iadd x 2) (fun y => vset a j y)))))) k) w Q E D.
Proof.
  intros Hw Hv Hn Hl Hk. eapply tri_lift_w; [exact Hw|]. apply wp_resize; [apply wf_empty_vec|lia|lia|].
  intros a A1 A2 A3.
  assert (A0 : part a m 1 (fun _ _ => False) (fun i _ => l i)).
  { apply part_none. unfold shp. splits; auto; lia. }
  eapply wp_mono; [|eapply wp_for_pure with (Inv := fun i a => part a m 1 (fun k _ => k < i) (fun j _ => l j))].
  - cbv beta. intros b o' ev (-> & -> & P2). intros w3 H3 O3. apply Hk; [exact H3|congruence|].
    apply (part_vec _ _ _ _) in P2; [exact P2|]. intros; lia.
  - lia.
  - eapply part_mono; [|exact A0]. cbv beta. intros i j Hi Hj H. lia.
  - intros i b Hi Pb. eapply wp_getn; [exact Hv|lia|]. destruct (Hl i Hi) as (L1 & L2).
    apply wp_iadd; [lia|]. rewrite <- L1.
    eapply wp_vset_part1; [exact Pb|lia|]. intros b' Pb'. splits; auto.
    eapply part_mono; [|exact Pb']. cbv beta. intros i0 j Hi0 Hj H. split; [lia|].
    destruct (Z.eqb_spec i0 i), (Z.eqb_spec j 0); subst; cbn; auto; try lia.
Qed.

(** Writing the data runs past a buffer *)
Lemma put_all_ub x h op fs env o y p l2 ds : forall l1 v1 v2 v v3 ys (w : world),
  wopen S x h op fs [] (mkFile ds (v1 ++ v2 ++ v :: v3)) w -> wO w = o -> NoDup (map vr_name (v1 ++ v2 ++ v :: v3)) ->
  map fst l1 = map vr_name v2 -> vr_name v = y ->
  Forall2 (fun p y => forall w', wO w' = o -> deref S env (fst p) w' (nsize ds (snd p)) = Some y)
    (combine (map snd l1) (map vr_dims v2)) ys ->
  (forall w', wO w' = o -> deref S env p w' (nsize ds (vr_dims v)) = None) ->
  ub (put_all S h env (l1 ++ (y, p) :: l2) w).
Proof.
  induction l1 as [|(y1, p1) l1 IH]; intros v1 v2 v v3 ys w Hw Ho Hn Hl Hv Hy Hu.
  - destruct v2; [|discriminate]. cbn [app] in *. cbn [put_all]. unfold nc_put_var, call, ibind.
    assert (Q : wQ w = []) by (destruct Hw as (_ & _ & _ & _ & HH); auto). unfold setQ. rewrite Q.
    rewrite (wopen_handle _ x h op fs [] _ w Hw). subst y. rewrite find_mid by auto. unfold vlen. cbn [nf_dims].
    fold (nsize ds (vr_dims v)). rewrite Hu by auto. unfold ub. eauto.
  - destruct v2 as [|u v2]; [discriminate|]. cbn in Hl. injection Hl as -> Hl. cbn in Hy. inversion Hy as [|a b c d Hy1 Hy2]; subst ys.
    cbn [app put_all]. unfold nc_put_var, call. unfold ibind at 1.
    assert (Q : wQ w = []) by (destruct Hw as (_ & _ & _ & _ & HH); auto). rewrite Q.
    rewrite (wopen_handle _ x h op fs [] _ w Hw). cbn [app]. rewrite find_mid by auto. unfold vlen. cbn [nf_dims]. fold (nsize ds (vr_dims u)).
    cbn [fst snd] in Hy1. rewrite Hy1 by auto. rewrite upd_mid by auto. cbn [wchk]. unfold ibind at 1. cbn [iret].
    eapply IH with (v1 := v1 ++ [set_val S u b]) (v2 := v2) (v := v) (v3 := v3) (ys := d); auto.
    + eapply wopen_put; eauto.
    + rewrite <- app_assoc. rewrite map_app in *. cbn in *. exact Hn.
Qed.

Lemma wdim_unlim_ok {B} x h op fs regs y ds vs w (k : unit -> io B) (Q : B -> world -> Prop) :
  wst S x h op fs [] ds vs w -> existsb (fun p => snd p =? 0) ds = false -> lookup ds y = None ->
  (forall w', wst S x h op fs [] (ds ++ [(y, 0)]) vs w' -> wO w' = wO w -> tri (k tt) w' Q (fun _ => False) (fun _ => False)) ->
  tri (ibind (wdim S (mkWr h regs) y 0) k) w Q (fun _ => False) (fun _ => False).
Proof.
  intros Hw Hn Hy Hk. apply tri_bind. unfold wdim, nc_def_dim. cbn [wr_id].
  match goal with |- tri (ibind ?m (fun c => wchk S c)) _ _ _ _ =>
    cut (tri (ibind m (fun c => ibind (wchk S c) (fun a : unit => iret a))) w (fun a w' => tri (k a) w' Q (fun _ => False) (fun _ => False)) (fun _ => False) (fun _ => False)) end.
  { unfold tri at 1 3, ibind. destruct (define h _ w) as [[m|[]] w'|m w'|y'|w']; auto. }
  eapply tri_define with (ok := fun _ => True) (a := tt) (ds' := ds ++ [(y, 0)]) (fs := fs) (q0 := []);
    [intros w' _ HH; now destruct HH|intros w' _ HH; now destruct HH|exact Hw|exact Logic.I| |].
  - intros g Ed Ev. rewrite Ed, Hn. change ((0 <? 0) || (2147483644 <? 0)) with false. cbn [Z.eqb andb]. rewrite Hy.
    eexists. split; [reflexivity|]. split; [reflexivity|exact Ev].
  - intros w' H' O'. apply tri_ret. auto.
Qed.
Lemma wdim_unlim_bad {B} x h op fs regs y ds vs w (k : unit -> io B) :
  wst S x h op fs [] ds vs w -> existsb (fun p => snd p =? 0) ds = true ->
  exists m, ibind (wdim S (mkWr h regs) y 0) k w = IThrow m w.
Proof.
  intros (g & Hg & Ed & Ev) Hn. pose proof Hg as (G1 & G2 & G3 & G4 & G5). specialize (G5 eq_refl).
  unfold wdim, nc_def_dim, define, call, ibind. cbn [wr_id]. rewrite G5, (wopen_handle _ x h _ _ _ _ _ Hg), Ed, Hn.
  cbn. eexists. reflexivity.
Qed.

Section Edited.
Variables (version x : string) (w : world) (o : obj) (d : bdat S) (g : afield -> Z -> Z -> F) (fl : bool) (ph : Z -> F).
Variables (vb : Z) (a : narr) (n : Z) (c : Z -> Z).
Let oe : obj := updN o N_compute_surfs a.
Hypothesis Ho : wO w = oe.
Hypothesis Hst : stored S o d g fl ph.
Hypothesis Hfit : wfits S version d.
Hypothesis Hw : open_ok w.
Hypothesis Hq : wQ w = [].
Hypothesis Hvb : oI o I_verbose = Some vb.
Hypothesis Ha : vec_is a n c.
Hypothesis Hc : forall j, 0 <= j < n -> INT_MIN <= c j + 2 <= INT_MAX.
Hypothesis Hn : n <= 2147483644.

Definition edims : list (string * Z) :=
  [("radius", b_radius S d); ("mn_mode", b_mnboz S d); ("mn_modes", b_mnboz S d);
   ("comput_surfs", n); ("pack_rad", n);
   (dim_str (22 + String.length version), Z.of_nat (22 + String.length version))]%string.
Let h := wNext w.
Notation wst := (wst S x h (wOpen w) (wFS w) []).
Let no (_ : world) : Prop := False.
Let yes (_ : obj) : Prop := True.
Lemma NE : forall w', wFS w' = torn S x (wFS w) -> (@nil verdict) <> [] -> yes (wO w') -> no w'.
Proof. intros w' _ H. now destruct H. Qed.
Lemma EDS2 : dims_ok edims ["pack_rad"; "mn_modes"]%string.
Proof.
  split; [reflexivity|]. constructor; [|constructor]. cbn. intros X. injection X as X. pose proof (wz_mnboz _ _ _ Hfit). lia.
Qed.
Lemma edit_open (R : ires S unit -> Prop) (k : writer -> io unit) :
  (forall w1, wst [] [] w1 -> wO w1 = oe -> R (k (mkWr h []) w1)) ->
  R (ibind (chatter S (out ("Writing output to " ++ x) [] [])) (fun _ => ibind (new_writer S x) k) w).
Proof.
  intros Hk. apply via, tri_bind. unfold chatter. apply tri_lift. eapply wp_geti; [rewrite Ho; exact Hvb|].
  assert (X : forall ev, tri (iret (S := S) tt) (addEv (setO w (wO w)) ev) (fun _ w' => R (ibind (new_writer S x) k w')) (fun _ => False) (fun _ => False)).
  { intros ev. apply tri_ret. unfold ibind at 1, new_writer, nc_create, call. unfold ibind at 1. cbn. rewrite Hq. cbn. apply Hk.
    - exists (mkFile [] []). split; [|split; reflexivity]. unfold wopen. cbn. splits; auto.
    - exact Ho. }
  destruct (0 <? vb); cbn [out bind wp]; cbv beta; apply X.
Qed.
Ltac vv := apply tri_ret.
Ltac nx w1 H1 O1 := let w2 := fresh "w'" in let H2 := fresh "H'" in let O2 := fresh "O'" in
  intros w2 H2 O2; rewrite O1 in O2; clear w1 H1 O1; rename w2 into w1; rename H2 into H1; rename O2 into O1; apply tri_ret; cbv beta.
Ltac dimg := first [exact EDS2|split; [reflexivity|constructor]].
Ltac pt w1 H1 O1 := apply via; eapply (tri_put S x h (wOpen w) (wFS w) [] no no yes NE NE);
  [exact H1|exact Logic.I|reflexivity|dimg| |nx w1 H1 O1].
Ltac li H1 := apply via; eapply (tri_lift_w S x h (wOpen w) (wFS w) [] no no); [exact H1|].
Ltac dm w1 H1 O1 := apply via; eapply (tri_wdim S x h (wOpen w) (wFS w) [] no no yes NE NE); [exact H1|exact Logic.I|lia|reflexivity|nx w1 H1 O1].

(** The data of jlist are taken from a buffer shorter than the dimension *)
Lemma edit_last env jl l1 l2 s1 u s2 ys o1 w1 : n > b_nsurf S d ->
  wst edims (s1 ++ ("jlist"%string, ["comput_surfs"%string], u) :: s2) w1 -> wO w1 = o1 ->
  NoDup (map sname (s1 ++ ("jlist"%string, ["comput_surfs"%string], u) :: s2)) ->
  map fst l1 = map sname s1 ->
  Forall2 (fun p y => forall w', wO w' = o1 -> deref S env (fst p) w' (nsize edims (snd p)) = Some y)
    (combine (map snd l1) (map (fun s => snd (fst s)) s1)) ys ->
  lookup env "jlist" = Some (LN S jl) -> vec_is jl (b_nsurf S d) (fun j => c j + 2) ->
  ub (write_and_close S (mkWr h (l1 ++ ("jlist"%string, LocN "jlist" (b_nsurf S d)) :: l2)) env w1).
Proof.
  intros Nn (gf & Hg & Ed & Ev) O1 Nd Hl Hy He Hjl.
  pose proof Hg as (_ & _ & _ & _ & G5). specialize (G5 eq_refl).
  unfold write_and_close, nc_enddef, call. unfold ibind at 1. rewrite G5. cbn [wr_id wr_regs wchk].
  apply (via_ret (B := unit) ub). destruct gf as [gd gv]. cbn [nf_dims nf_vars] in *. subst gd.
  apply map_eq_app in Ev. destruct Ev as (v1 & v2 & -> & E1 & E2). apply map_eq_cons in E2. destruct E2 as (v & v3 & -> & E3 & E4).
  assert (N1 : vr_name v = "jlist"%string) by (injection E3; auto).
  assert (N2 : vr_dims v = ["comput_surfs"%string]) by (injection E3; auto).
  cut (ub (put_all S h env (l1 ++ ("jlist"%string, LocN "jlist" (b_nsurf S d)) :: l2) w1)).
  { intros (why & E). unfold ub, ibind. rewrite E. eauto. }
  eapply put_all_ub with (v1 := []) (v2 := v1) (v := v) (v3 := v3); [exact Hg|exact O1| | |exact N1| |].
  - cbn [app]. rewrite <- E1, <- E3, <- E4 in Nd. change (sig_of S v :: map (sig_of S) v3) with (map (sig_of S) (v :: v3)) in Nd; rewrite <- map_app, map_map in Nd. exact Nd.
  - rewrite Hl, <- E1, map_map. reflexivity.
  - replace (map vr_dims v1) with (map (fun s : sig => snd (fst s)) s1); [exact Hy|]. rewrite <- E1, map_map. reflexivity.
  - intros w' O'. rewrite N2. cbn [deref]. rewrite He. replace (nsize edims ["comput_surfs"%string]) with n by (cbn; lia).
    unfold block. destruct (Z.leb_spec n (b_nsurf S d)); [lia|]. now rewrite andb_false_r.
Qed.
(** Up to comput_surfs *)
Lemma edit_empty : n = 0 -> exists m w', write_boozmn S version x w = IThrow m w' /\ wFS w' x = Some Torn.
Proof.
  destruct Hst as [Aasym Alasym Anfp Amboz Anboz Amnboz Ansin Ans Ansb Axm Axn (cs & Acs & Ajl) (Z1 & Z2 & Z3) Aiota AG AI Asym AasymM Afile Aflux Anoflux].
  destruct Hfit as [Wm Wr Ws Wj Wv]. intros En.
  set (R := fun r : ires S unit => exists m w', r = IThrow m w' /\ wFS w' x = Some Torn). change (R (write_boozmn S version x w)).
  unfold write_boozmn. apply edit_open. intros w1 H1 O1.
  li H1. apply wp_unbind. eapply wp_geti; [rewrite O1; exact Ansin|]. cbn [wp]. cbv beta. nx w1 H1 O1.
  li H1. apply wp_unbind. apply wp_iadd; [unfold INT_MIN, INT_MAX; lia|]. cbn [wp]. cbv beta. nx w1 H1 O1.
  rewrite Z.sub_add. dm w1 H1 O1.
  li H1. apply wp_unbind. eapply wp_geti; [rewrite O1; exact Amnboz|]. cbn [wp]. cbv beta. nx w1 H1 O1.
  dm w1 H1 O1. dm w1 H1 O1.
  li H1. apply wp_unbind. eapply wp_sizen; [rewrite O1; exact Ha|]. cbn [wp]. cbv beta. nx w1 H1 O1.
  subst n. apply via. eapply (wdim_unlim_ok x h (wOpen w) (wFS w)); [exact H1| |reflexivity|nx w1 H1 O1].
  { cbn. destruct (Z.eqb_spec (b_radius S d) 0); [lia|]. destruct (Z.eqb_spec (b_mnboz S d) 0); [lia|]. reflexivity. }
  destruct (wdim_unlim_bad x h (wOpen w) (wFS w) [] "pack_rad"%string _ _ w1 (fun _ : unit => iret (S := S) tt) H1) as (m & E).
  { apply existsb_exists. exists ("comput_surfs"%string, 0). split; [cbn; auto 10|reflexivity]. }
  unfold R, ibind at 1. unfold ibind in E. destruct (wdim S _ _ _ w1); try discriminate. injection E as -> ->.
  do 2 eexists. split; [reflexivity|]. destruct H1 as (gf & (_ & _ & G3 & _) & _). rewrite G3. unfold torn. now rewrite String.eqb_refl.
Qed.

Ltac pm w1 H1 O1 Bm := eapply (tri_put_mat S x h (wOpen w) (wFS w) [] no no yes NE NE) with (r := b_mnboz S d) (c := b_nsurf S d);
  [exact H1|exact Logic.I|reflexivity|exact EDS2|rewrite O1; eapply Bm; cbn; auto 10|lia|lia|nx w1 H1 O1].
Ltac dg := let w' := fresh in let O' := fresh in intros w' O'; cbv beta;
  first [eapply d_LS; [reflexivity|exact (NZ5 S version d)] |eapply d_LI; [reflexivity|reflexivity]|eapply d_LF; [reflexivity|reflexivity]
        |eapply d_I; [exact O'|reflexivity]|eapply d_F; [exact O'|reflexivity]].
Ltac closing w1 H1 O1 jl GN Vjl :=
  match goal with |- ub (write_and_close S (mkWr _ ?regs) _ _) => let l1 := eval cbv [app firstn] in (firstn 11 regs) in let l2 := eval cbv [app skipn] in (skipn 12 regs) in
    change regs with (l1 ++ ("jlist"%string, LocN "jlist" (b_nsurf S d)) :: l2) end;
  match type of H1 with NcWrite.wst S _ _ _ _ _ _ ?vs _ => let s1 := eval cbv [app firstn] in (firstn 11 vs) in let s2 := eval cbv [app skipn] in (skipn 12 vs) in
    let u := constr:(units_of "dimensionless") in
    change vs with (s1 ++ ("jlist"%string, ["comput_surfs"%string], u) :: s2) in H1 end;
  eapply (edit_last _ jl) with (2 := H1); [exact GN|exact O1|apply nodupb_ok; vm_compute; reflexivity|reflexivity| |reflexivity|exact Vjl];
  cbn [app map combine fst snd sname]; repeat (apply Forall2_cons; [dg|]); apply Forall2_nil.
Ltac mats w1 H1 O1 Bm Ba jl Ea GN Vjl :=
  do 3 (apply via; pm w1 H1 O1 Bm);
  apply via; eapply (tri_neg S x h (wOpen w) (wFS w) [] no no); [exact H1|rewrite O1; apply (Bm "pmns_b"%string); cbn; auto 10|];
  (let pn := fresh "pn" in let w' := fresh "w'" in let H' := fresh "H'" in let O' := fresh "O'" in let V := fresh "V" in
   intros pn w' H' O' V; revert w' H' O'; nx w1 H1 O1;
   apply via; eapply (tri_put_local_mat S x h (wOpen w) (wFS w) [] no no yes NE NE) with (r := b_mnboz S d) (c := b_nsurf S d);
    [exact H1|exact Logic.I|reflexivity|exact EDS2|exact V|lia|lia|nx w1 H1 O1]);
  apply via; pm w1 H1 O1 Bm;
  destruct Ea as [Ea|Ea]; rewrite Ea;
  [ specialize (Ba Ea); do 3 (apply via_assoc, via; pm w1 H1 O1 Ba);
    apply via_assoc, via; eapply (tri_neg S x h (wOpen w) (wFS w) [] no no); [exact H1|rewrite O1; apply (Ba "pmnc_b"%string); cbn; auto 10|];
    (let pn := fresh "pn" in let w' := fresh "w'" in let H' := fresh "H'" in let O' := fresh "O'" in let V := fresh "V" in
     intros pn w' H' O' V; revert w' H' O'; nx w1 H1 O1;
     apply via_assoc, via; eapply (tri_put_local_mat S x h (wOpen w) (wFS w) [] no no yes NE NE) with (r := b_mnboz S d) (c := b_nsurf S d);
      [exact H1|exact Logic.I|reflexivity|exact EDS2|exact V|lia|lia|nx w1 H1 O1]);
    apply via_assoc, via; pm w1 H1 O1 Ba; apply (via_ret (B := unit) ub); cbv beta iota; closing w1 H1 O1 jl GN Vjl
  | apply (via_ret (B := unit) ub); cbv beta iota; closing w1 H1 O1 jl GN Vjl ].

Lemma edit_any : 1 <= n -> n <> b_nsurf S d -> ub (write_boozmn S version x w).
Proof.
  destruct Hst as [Aasym Alasym Anfp Amboz Anboz Amnboz Ansin Ans Ansb Axm Axn (cs & Acs & Ajl) (Z1 & Z2 & Z3) Aiota AG AI Asym AasymM Afile Aflux Anoflux].
  destruct Hfit as [Wm Wr Ws Wj Wv]. intros En Nn.
  unfold write_boozmn. apply edit_open. intros w1 H1 O1.
  li H1. apply wp_unbind. eapply wp_geti; [rewrite O1; exact Ansin|]. cbn [wp]. cbv beta. nx w1 H1 O1.
  li H1. apply wp_unbind. apply wp_iadd; [unfold INT_MIN, INT_MAX; lia|]. cbn [wp]. cbv beta. nx w1 H1 O1.
  rewrite Z.sub_add. dm w1 H1 O1.
  li H1. apply wp_unbind. eapply wp_geti; [rewrite O1; exact Amnboz|]. cbn [wp]. cbv beta. nx w1 H1 O1.
  dm w1 H1 O1. dm w1 H1 O1.
  li H1. apply wp_unbind. eapply wp_sizen; [rewrite O1; exact Ha|]. cbn [wp]. cbv beta. nx w1 H1 O1.
  dm w1 H1 O1. dm w1 H1 O1.
  apply via; eapply (tri_put_string S x h (wOpen w) (wFS w) [] no no yes NE NE); [exact H1|exact Logic.I|reflexivity|reflexivity| |].
  { cbn [append String.length]. lia. }
  nx w1 H1 O1. change (wst edims [("version"%string, [dim_str (22 + String.length version)], None)] w1) in H1.
  li H1. apply wp_unbind. eapply wp_getb; [rewrite O1; exact Aasym|]. cbn [wp]. cbv beta. nx w1 H1 O1.
  do 10 (pt w1 H1 O1; [exact Logic.I|]).
  li H1. apply wp_unbind. eapply wp_geti; [rewrite O1; exact Ansb|]. cbn [wp]. cbv beta. nx w1 H1 O1.
  destruct (Z_lt_le_dec n (b_nsurf S d)) as [Ln|Ln].
  { eapply jlist_short; [rewrite O1; exact Ha|exact Ln|exact Hc]. }
  apply via; eapply (tri_jlist_long x h (wOpen w) (wFS w) no no (b_nsurf S d) n c (fun j => c j + 2)); [exact H1|rewrite O1; exact Ha|lia| |].
  { intros j Hj. split; [auto|]. apply Hc. lia. }
  intros jl w' H' O' Vjl. revert w' H' O'. nx w1 H1 O1. rewrite (vec_is_asize _ _ _ Vjl).
  pt w1 H1 O1; [apply good_LN; lia|].
  apply via; eapply (tri_put_ints S x h (wOpen w) (wFS w) [] no no yes NE NE) with (n := b_mnboz S d);
    [exact H1|exact Logic.I|reflexivity|dimg|rewrite O1; now apply vec_is_asize in Axm|lia|nx w1 H1 O1].
  apply via; eapply (tri_put_ints S x h (wOpen w) (wFS w) [] no no yes NE NE) with (n := b_mnboz S d);
    [exact H1|exact Logic.I|reflexivity|dimg|rewrite O1; now apply vec_is_asize in Axn|lia|nx w1 H1 O1].
  apply via; eapply (tri_prepend S x h (wOpen w) (wFS w) [] no no); [exact H1|rewrite O1; exact Aiota|unfold INT_MAX; lia|].
  intros io w' H' O' Vio. revert w' H' O'. nx w1 H1 O1. rewrite Z.sub_add in Vio.
  apply via; eapply (tri_prepend S x h (wOpen w) (wFS w) [] no no); [exact H1|rewrite O1; exact AI|unfold INT_MAX; lia|].
  intros bu w' H' O' Vbu. revert w' H' O'. nx w1 H1 O1. rewrite Z.sub_add in Vbu.
  apply via; eapply (tri_prepend S x h (wOpen w) (wFS w) [] no no); [exact H1|rewrite O1; exact AG|unfold INT_MAX; lia|].
  intros bv w' H' O' Vbv. revert w' H' O'. nx w1 H1 O1. rewrite Z.sub_add in Vbv.
  rewrite (vec_is_asize _ _ _ Vio), (vec_is_asize _ _ _ Vbu), (vec_is_asize _ _ _ Vbv).
  do 3 (pt w1 H1 O1; [apply good_LA; lia|]).
  apply via; eapply (tri_new_vec S x h (wOpen w) (wFS w) [] no no); [exact H1|lia|].
  intros be w' H' O' Vbe. revert w' H' O'. nx w1 H1 O1. rewrite (proj1 Vbe).
  pt w1 H1 O1; [apply good_LA; lia|].
  apply via; eapply (tri_zero_vec S x h (wOpen w) (wFS w) [] no no); [exact H1|lia|].
  intros dp w' H' O' Vdp. revert w' H' O'. nx w1 H1 O1.
  apply via; eapply (tri_zero_vec S x h (wOpen w) (wFS w) [] no no); [exact H1|lia|].
  intros dc w' H' O' Vdc. revert w' H' O'. nx w1 H1 O1.
  apply via; eapply (tri_zero_vec S x h (wOpen w) (wFS w) [] no no); [exact H1|lia|].
  intros di w' H' O' Vdi. revert w' H' O'. nx w1 H1 O1.
  li H1. apply wp_getarr; [exact Logic.I|]. cbn [wp]. cbv beta.
  intros w' H' O'. rewrite O1 in O' |- *. clear w1 H1 O1. rename w' into w1. rename H' into H1. rename O' into O1. apply tri_ret. cbv beta.
  rewrite (vec_is_asize _ _ _ Vdp), (vec_is_asize _ _ _ Vdc), (vec_is_asize _ _ _ Vdi).
  assert (Efl : fl = true \/ fl = false) by (destruct fl; auto).
  assert (Ea : b_asym S d = true \/ b_asym S d = false) by (destruct (b_asym S d); auto).
  assert (GN : n > b_nsurf S d) by lia. clear Ln Nn.
  destruct Efl as [Efl|Efl].
  - destruct (Aflux Efl) as (Vph & Eph & Vch & Vpr & Vpi).
    replace (asize (oA oe A_phip)) with (b_radius S d) by (symmetry; apply (vec_is_asize _ _ _ Vph)).
    destruct (Z.eqb_spec (b_radius S d) 0); [lia|].
    set (o1 := updA oe A_phip (aput (oA oe A_phip) 0 (fofZ S 0))).
    apply via_assoc. li H1. apply wp_unbind. apply wp_putv; [rewrite O1; destruct Vph as (_ & _ & _ & V); cbn; rewrite V by lia; eauto|exact Logic.I|].
    cbn [wp]. cbv beta. rewrite O1. fold o1. clear w1 H1 O1. intros w1 H1 O1. apply tri_ret; cbv beta.
    assert (Bm : forall y m, In (y, m) bvars_sym -> mat_is (oA o1 m) (b_mnboz S d) (b_nsurf S d) (g m)).
    { intros y m Hin. replace (oA o1 m) with (oA o m); [now apply (Asym y)|]. cbn in Hin. cbn.
      destruct (afield_eq_dec m A_phip) as [->|]; [intuition discriminate|reflexivity]. }
    assert (Ba : b_asym S d = true -> forall y m, In (y, m) bvars_asym -> mat_is (oA o1 m) (b_mnboz S d) (b_nsurf S d) (g m)).
    { intros As y m Hin. replace (oA o1 m) with (oA o m); [now apply (AasymM As y)|]. cbn in Hin. cbn.
      destruct (afield_eq_dec m A_phip) as [->|]; [intuition discriminate|reflexivity]. }
    assert (Xph : asize (oA o1 A_phip) = b_radius S d).
    { cbn. apply (vec_is_asize _ _ _ Vph). }
    assert (Xch : asize (oA o1 A_chi) = b_radius S d) by (apply (vec_is_asize _ _ _ Vch)).
    assert (Xpr : asize (oA o1 A_pres) = b_radius S d) by (apply (vec_is_asize _ _ _ Vpr)).
    assert (Xpi : asize (oA o1 A_phi) = b_radius S d) by (apply (vec_is_asize _ _ _ Vpi)).
    clearbody o1.
    do 4 (apply via_assoc, via; eapply (tri_put_arr S x h (wOpen w) (wFS w) [] no no yes NE NE) with (n := b_radius S d);
      [exact H1|exact Logic.I|reflexivity|dimg|rewrite O1; assumption|lia|nx w1 H1 O1]).
    apply (via_ret (B := unit) ub). cbv beta iota.
    mats w1 H1 O1 Bm Ba jl Ea GN Vjl.
  - assert (Xz : asize (oA oe A_phip) = 0) by (apply (Anoflux Efl)). rewrite Xz, Z.eqb_refl.
    assert (Bm : forall y m, In (y, m) bvars_sym -> mat_is (oA oe m) (b_mnboz S d) (b_nsurf S d) (g m)).
    { intros y m Hin. now apply (Asym y). }
    assert (Ba : b_asym S d = true -> forall y m, In (y, m) bvars_asym -> mat_is (oA oe m) (b_mnboz S d) (b_nsurf S d) (g m)).
    { intros As y m Hin. now apply (AasymM As y). }
    clearbody oe.
    apply via_assoc, via; eapply (tri_zero_vec S x h (wOpen w) (wFS w) [] no no); [exact H1|lia|].
    intros dq w' H' O' Vdq. revert w' H' O'. nx w1 H1 O1. rewrite (vec_is_asize _ _ _ Vdq).
    do 4 (apply via_assoc; pt w1 H1 O1; [apply good_LA; lia|]).
    apply (via_ret (B := unit) ub). cbv beta iota.
    mats w1 H1 O1 Bm Ba jl Ea GN Vjl.
Qed.
End Edited.
End Edit.

(** Property C79: what a writing writes, whatever the object contains. *)
From Coq Require Import ZArith List String Bool Lia.
From Verif Require Import Scalar Prog Model Wp Func FuncExt Spec Vmec Nc NcModel NcSpec NcVoc NcWrite NcThms NcThms2 NcThms3 NcThms4 Py Frame FrameThms ReadAll Stored.
Import ListNotations.
Local Open Scope Z_scope.
Local Open Scope io_scope.

(** ** Vocabulary *)
Section Voc.
Context {S : Scalar}.
(** Variable [y] has the dimensions [ds] and the value [v]. *)
Definition holds (f : ncfile S) (y : string) (ds : list string) (v : ncval S) : Prop :=
  exists u, find_var f y = Some u /\ vr_dims u = ds /\ vr_val u = v.
(** [l] are the first [n] elements of [a] in storage order. *)
Definition prefix {T} (a : array T) (n : Z) (l : list (option T)) : Prop := Z.of_nat (List.length l) = n /\ begins l a.
Definition zero : option (F S) := Some (fofZ S 0).

Definition radial : list (string * afield) := [("iota_b", A_iota); ("buco_b", A_Boozer_I_all); ("bvco_b", A_Boozer_G_all)]%string.
Definition fluxes : list (string * afield) := [("chi_b", A_chi); ("pres_b", A_pres); ("phi_b", A_phi)]%string.
End Voc.

Section Proof.
Context {S : Scalar}.
Notation obj := (obj S).
Notation world := (world S).
Notation io := (io S).
Notation F := (F S).
Notation arr := (arr S).
Notation prog := (prog S).

Definition ok {A} (m : io A) (w : world) (Q : A -> world -> Prop) : Prop := match m w with IOk a w' => Q a w' | _ => True end.
Lemma ok_bind {A B} (m : io A) (k : A -> io B) w Q : ok m w (fun a w' => ok (k a) w' Q) -> ok (ibind m k) w Q.
Proof. unfold ok, ibind. destruct (m w); auto. Qed.
Lemma ok_mono {A} (m : io A) w (P Q : A -> world -> Prop) : ok m w P -> (forall a w', P a w' -> Q a w') -> ok m w Q.
Proof. unfold ok. destruct (m w); auto. Qed.
Lemma ok_then {A B} (m : io A) (k : A -> io B) w P Q : ok m w P -> (forall a w', P a w' -> ok (k a) w' Q) -> ok (ibind m k) w Q.
Proof. intros H G. apply ok_bind. eapply ok_mono; eauto. Qed.
Lemma ok_ret {A} (a : A) w (Q : A -> world -> Prop) : Q a w -> ok (iret a) w Q.
Proof. auto. Qed.
Lemma ok_lift {A} (p : prog A) w (Q : A -> world -> Prop) :
  (forall a o ev, run p (wO w) = ROk a o ev -> Q a (addEv (setO w o) ev)) -> ok (lift p) w Q.
Proof. intros H. unfold ok, lift. destruct (run p (wO w)) as [a o ev| |] eqn:E; auto. Qed.

Lemma find_upd (g : ncfile S) y z t : (forall v, vr_name (t v) = vr_name v) ->
  find_var (upd_var g y t) z = if String.eqb y z then option_map t (find_var g z) else find_var g z.
Proof.
  intros Ht. unfold find_var, upd_var. cbn. induction (nf_vars g) as [|v l IH]; cbn; [destruct (String.eqb y z); reflexivity|].
  destruct (String.eqb_spec (vr_name v) y) as [E|E].
  - rewrite Ht. destruct (String.eqb_spec (vr_name v) z) as [E2|E2].
    + destruct (String.eqb_spec y z); [reflexivity|congruence].
    + exact IH.
  - destruct (String.eqb_spec (vr_name v) z) as [E2|E2]; [|exact IH]. destruct (String.eqb_spec y z); [congruence|reflexivity].
Qed.

Section Go.
Variables (x : string) (h : Z).
Definition sg (v : ncvar S) : string * list string := (vr_name v, vr_dims v).
Definition st (o : obj) (ds : list (string * Z)) (vs : list (string * list string)) (w : world) : Prop :=
  wO w = o /\ exists g, handle w h = Some (Writing x g) /\ nf_dims g = ds /\ map sg (nf_vars g) = vs.

Lemma handle_put (w : world) u u' : handle w h = Some u -> handle (put_handle w h u') h = Some u'.
Proof.
  unfold handle, put_handle. cbn. induction (wOpen w) as [|(p, y) l IH]; cbn; [discriminate|].
  destruct (Z.eqb_spec p h) as [->|N]; cbn.
  - now rewrite Z.eqb_refl.
  - destruct (Z.eqb_spec p h); [contradiction|]. exact IH.
Qed.
Lemma ok_call {A} (f : world -> ires S (code A)) w (Q : code A -> world -> Prop) :
  (forall w', wO w' = wO w -> (forall k, handle w' k = handle w k) -> match f w' with IOk c w'' => Q c w'' | _ => True end) ->
  (forall m w', wO w' = wO w -> (forall k, handle w' k = handle w k) -> Q (Err m) w') -> ok (Nc.call f) w Q.
Proof.
  intros H G. unfold ok, Nc.call. destruct (wQ w) as [|[|m|] q].
  - now apply H.
  - now apply (H (setQ w q)).
  - now apply G.
  - exact Logic.I.
Qed.
Lemma st_same o ds vs w w' : st o ds vs w -> wO w' = wO w -> (forall k, handle w' k = handle w k) -> st o ds vs w'.
Proof. intros (H1 & g & H2 & H3) E1 E2. split; [congruence|]. exists g. now rewrite E2. Qed.
Lemma st_ev o ds vs w o' ev : st o ds vs w -> st o' ds vs (addEv (setO w o') ev).
Proof. intros (_ & H). split; [reflexivity|exact H]. Qed.
Lemma ok_define {A} (f : ncfile S -> code (A * ncfile S)) o ds vs w : st o ds vs w ->
  ok (define h f) w (fun c w' => match c with Err _ => st o ds vs w' | Good a =>
     exists g g', nf_dims g = ds /\ map sg (nf_vars g) = vs /\ f g = Good (a, g') /\ st o (nf_dims g') (map sg (nf_vars g')) w' end).
Proof.
  intros Hs. unfold define. apply ok_call.
  - intros w' E1 E2. pose proof (st_same _ _ _ _ _ Hs E1 E2) as (O & g & H & D & V). rewrite H. destruct (f g) as [m|(a, g')] eqn:Ef.
    + split; [exact O|]. exists g. auto.
    + exists g, g'. repeat split; auto. exists g'. split; [|auto]. eapply handle_put, H.
  - intros m w' E1 E2. now apply (st_same _ _ _ w).
Qed.
Lemma ok_chk {A} (m : io (code A)) w (P : code A -> world -> Prop) (Q : A -> world -> Prop) :
  ok m w P -> (forall a w', P (Good a) w' -> Q a w') -> ok (c <- m ;; wchk S c) w Q.
Proof. intros H G. eapply ok_then; [exact H|]. intros [e|a] w' H'; [exact Logic.I|]. apply ok_ret. auto. Qed.
Lemma ok_wdim regs y n o ds vs w : st o ds vs w ->
  ok (wdim S (mkWr h regs) y n) w (fun _ w' => st o (ds ++ [(y, n)]) vs w' /\ 0 <= n).
Proof.
  intros Hs. unfold wdim. cbn [wr_id]. unfold nc_def_dim. eapply ok_chk; [apply ok_define, Hs|].
  intros [] w' (g & g' & D & V & E & H').
  destruct ((n <? 0) || (2147483644 <? n)) eqn:B; [discriminate E|]. destruct ((n =? 0) && _); [discriminate E|]. destruct (lookup _ _); [discriminate E|].
  injection E as <-. cbn in H'. rewrite D, V in H'. split; [exact H'|]. apply orb_false_iff in B. destruct B as (B & _). now apply Z.ltb_ge in B.
Qed.
Lemma sg_upd (g : ncfile S) y t : (forall v, sg (t v) = sg v) -> map sg (nf_vars (upd_var g y t)) = map sg (nf_vars g).
Proof. intros Ht. unfold upd_var. cbn. rewrite map_map. apply map_ext. intros v. destruct (String.eqb _ _); auto. Qed.
Lemma ok_att y a t o ds vs w : st o ds vs w -> ok (c <- nc_put_att_text h y a t ;; wchk S c) w (fun _ w' => st o ds vs w').
Proof.
  intros Hs. unfold nc_put_att_text. eapply ok_chk; [apply ok_define, Hs|]. intros [] w' (g & g' & D & V & E & H').
  injection E as <-. rewrite sg_upd in H' by reflexivity. cbn [nf_dims upd_var] in H'. now rewrite D, V in H'.
Qed.
Lemma ok_atts regs y att units o ds vs w : st o ds vs w -> ok (add_attribute S (mkWr h regs) y att units) w (fun _ w' => st o ds vs w').
Proof.
  intros Hs. unfold add_attribute. cbn [wr_id]. apply ok_then with (P := fun _ w' => st o ds vs w').
  - destruct (0 <? String.length att)%nat; [now apply ok_att|now apply ok_ret].
  - intros ? w1 H1. destruct (0 <? String.length units)%nat; [now apply ok_att|now apply ok_ret].
Qed.
Lemma ok_def_var y dd ty o ds vs w : st o ds vs w -> ok (nc_def_var h y dd ty) w (fun c w' => match c with Err _ => True | Good _ => st o ds (vs ++ [(y, dd)]) w' end).
Proof.
  intros Hs. unfold nc_def_var. eapply ok_mono; [apply ok_define, Hs|]. intros [m|[]] w' H'; [exact Logic.I|].
  destruct H' as (g & g' & D & V & E & H'). destruct (find_var g y); [discriminate E|]. destruct (forallb _ dd); [|discriminate E].
  destruct (existsb _ _); [discriminate E|]. injection E as <-. cbn [nf_dims nf_vars] in H'. rewrite map_app, D, V in H'. exact H'.
Qed.
Lemma ok_put regs dd y ty p att units o ds vs w : st o ds vs w ->
  ok (put S (mkWr h regs) dd y ty p att units) w (fun nc w' => nc = mkWr h (regs ++ [(y, p)]) /\ st o ds (vs ++ [(y, dd)]) w').
Proof.
  intros Hs. unfold put. cbn [wr_id wr_regs]. eapply ok_then; [apply ok_def_var, Hs|]. intros [m|[]] w1 H1; [exact Logic.I|].
  apply ok_bind, ok_ret. apply ok_then with (P := fun _ w' => st o ds (vs ++ [(y, dd)]) w').
  { destruct p as [| |? n|? n| | |? n|? n|]; try (now apply ok_ret); destruct n; try (now apply ok_ret); exact Logic.I. }
  intros ? w2 H2. eapply ok_then; [apply ok_atts, H2|]. intros ? w3 H3. apply ok_ret. auto.
Qed.
Lemma ok_put_string regs y nm s att o ds vs w : lookup ds (dim_str (String.length s)) = None -> st o ds vs w ->
  ok (put_string S (mkWr h regs) y nm s att) w (fun nc w' =>
    nc = mkWr h (regs ++ [(y, LocS nm (Z.of_nat (String.length s)))]) /\
    st o (ds ++ [(dim_str (String.length s), Z.of_nat (String.length s))]) (vs ++ [(y, [dim_str (String.length s)])]) w').
Proof.
  intros Hl Hs. unfold put_string. cbn [wr_id wr_regs]. set (len := Z.of_nat _). set (dm := dim_str _) in *. clearbody dm len.
  apply ok_then with (P := fun c w' => match c with Err _ => st o ds vs w' | Good _ => False end).
  { apply ok_call.
    - intros w' E1 E2. pose proof (st_same _ _ _ _ _ Hs E1 E2) as H'. destruct H' as (O & g & H & D & V).
      unfold contents. rewrite H, D, Hl. split; [exact O|]. exists g. auto.
    - intros m w' E1 E2. now apply (st_same _ _ _ w). }
  intros [m|[]] w1 H1; [|contradiction].
  eapply ok_then; [eapply (ok_wdim regs dm len), H1|]. intros ? w2 (H2 & _). eapply ok_then; [apply ok_def_var, H2|].
  intros [e|[]] w3 H3; [exact Logic.I|]. apply ok_bind, ok_ret. eapply ok_then; [apply ok_atts, H3|]. intros ? w4 H4. apply ok_ret. auto.
Qed.
Lemma ok_put_ints regs dd y f att units o ds vs w : st o ds vs w ->
  ok (put_ints S (mkWr h regs) dd y f att units) w (fun nc w' => nc = mkWr h (regs ++ [(y, MemN f (asize (oN o f)))]) /\ st o ds (vs ++ [(y, dd)]) w').
Proof. intros Hs. unfold put_ints. unfold theobj. apply ok_bind. cbn. rewrite (proj1 Hs). now apply ok_put. Qed.
Lemma ok_put_arr regs dd y f att units o ds vs w : st o ds vs w ->
  ok (put_arr S (mkWr h regs) dd y f att units) w (fun nc w' => nc = mkWr h (regs ++ [(y, MemA f (asize (oA o f)))]) /\ st o ds (vs ++ [(y, dd)]) w').
Proof. intros Hs. unfold put_arr. unfold theobj. apply ok_bind. cbn. rewrite (proj1 Hs). now apply ok_put. Qed.
Lemma ok_put_mat regs y f att units o ds vs w : st o ds vs w ->
  ok (put_mat S (mkWr h regs) y f att units) w (fun nc w' =>
    nc = mkWr h (regs ++ [(y, MemA f (asize (oA o f)))]) /\ st o ds (vs ++ [(y, ["pack_rad"; "mn_modes"]%string)]) w').
Proof.
  intros Hs. unfold put_mat. unfold theobj. apply ok_bind. cbn. rewrite (proj1 Hs). destruct (inside _ _ _ _); [|exact Logic.I].
  apply ok_bind, ok_ret. now apply ok_put.
Qed.
Lemma ok_put_local_mat regs y a att units o ds vs w : st o ds vs w ->
  ok (put_local_mat S (mkWr h regs) y a att units) w (fun nc w' =>
    nc = mkWr h (regs ++ [(y, LocA y (asize a))]) /\ st o ds (vs ++ [(y, ["pack_rad"; "mn_modes"]%string)]) w').
Proof.
  intros Hs. unfold put_local_mat. destruct (inside _ _ _ _); [|exact Logic.I]. apply ok_bind, ok_ret. now apply ok_put.
Qed.

(** Steps on the object *)
Lemma ok_pure {A} (p : prog A) (P : A -> Prop) o ds vs w : st o ds vs w -> (forall a o' ev, run p o = ROk a o' ev -> o' = o /\ P a) ->
  ok (lift p) w (fun a w' => P a /\ st o ds vs w').
Proof.
  intros Hs H. apply ok_lift. intros a o' ev E. rewrite (proj1 Hs) in E. destruct (H _ _ _ E) as (-> & Ha). split; [exact Ha|]. eapply st_ev; eassumption.
Qed.
Lemma ok_geti k o ds vs w : st o ds vs w -> ok (lift (geti k)) w (fun v w' => oI o k = Some v /\ st o ds vs w').
Proof. intros Hs. apply (ok_pure _ (fun v => oI o k = Some v)); [exact Hs|]. intros a o' ev E. cbn in E. destruct (oI o k) as [v|]; [|discriminate E]. now injection E as <- <- _. Qed.
Lemma ok_getb k o ds vs w : st o ds vs w -> ok (lift (getb k)) w (fun v w' => oB o k = Some v /\ st o ds vs w').
Proof. intros Hs. apply (ok_pure _ (fun v => oB o k = Some v)); [exact Hs|]. intros a o' ev E. cbn in E. destruct (oB o k) as [v|]; [|discriminate E]. now injection E as <- <- _. Qed.
Lemma ok_sizen k o ds vs w : st o ds vs w -> ok (lift (sizen k)) w (fun v w' => v = asize (oN o k) /\ st o ds vs w').
Proof. intros Hs. apply (ok_pure _ (fun v => v = asize (oN o k))); [exact Hs|]. intros a o' ev E. cbn in E. now injection E as <- <- _. Qed.
Lemma ok_iadd a b o ds vs w : st o ds vs w -> ok (lift (iadd a b)) w (fun v w' => v = a + b /\ st o ds vs w').
Proof.
  intros Hs. apply (ok_pure _ (fun v => v = a + b)); [exact Hs|]. intros v o' ev E. unfold iadd, int_ in E. destruct (in_int (a + b)); [|discriminate E].
  cbn in E. now injection E as <- <- _.
Qed.

(** Local arrays *)
Lemma new_ok {T} (a : array T) n o o' ev : run (S := S) (resize empty_vec n 1) o = ROk a o' ev ->
  o' = o /\ 0 <= n /\ arows a = n /\ acols a = 1 /\ adata a = zrepeat None n.
Proof.
  unfold resize. destruct (Z.ltb_spec n 0) as [N|N]; [discriminate|]. cbn [orb Z.ltb Z.compare].
  destruct (Z.eqb_spec (n * 1) (asize (@empty_vec T))) as [E|E]; intros R; cbn in R; injection R as <- <- _; cbn.
  - cbv [asize empty_vec arows acols] in E. assert (n = 0) as -> by lia. auto.
  - rewrite Z.mul_1_r. auto.
Qed.
Lemma begins_znth {T} (l : list (option T)) (a : array T) :
  (forall k, 0 <= k < Z.of_nat (List.length l) -> znth (adata a) k = znth l k) -> begins l a.
Proof.
  intros H. apply begins_pt. intros m c Hc. assert (Hm : (m < List.length l)%nat) by (apply nth_error_Some; congruence).
  rewrite <- znth_nth, H by lia. now rewrite znth_nth.
Qed.
Lemma ok_prepend f n o ds vs w : st o ds vs w ->
  ok (prepend_zero S f n) w (fun a w' => (exists l, asize a = n + 1 /\ adata a = zero :: l /\ prefix (oA o f) n l) /\ st o ds vs w').
Proof.
  intros Hs. unfold prepend_zero. eapply ok_then; [apply ok_iadd, Hs|]. intros m w1 (-> & H1).
  apply ok_then with (P := fun (a : arr) w' => (0 <= n + 1 /\ arows a = n + 1 /\ acols a = 1 /\ adata a = zrepeat None (n + 1)) /\ st o ds vs w').
  { apply ok_pure; [exact H1|]. intros a o' ev E. apply (new_ok a) in E. tauto. }
  intros a w2 ((N & A1 & A2 & A3) & H2). apply ok_pure; [exact H2|]. intros b o' ev E. rewrite bind_run in E.
  assert (La : Z.of_nat (List.length (adata a)) = n + 1) by (rewrite A3; apply zrepeat_len; lia).
  unfold vset in E at 1. destruct (znth (adata a) 0) as [c|] eqn:E0; [|discriminate E]. cbn [run] in E.
  assert (N1 : 0 <= 0 < n + 1) by (rewrite <- La; apply znth_Some; eauto).
  destruct (run (for_ 0 n _ _) o) as [b' o1 ev1| |] eqn:R; try discriminate E. cbn in E. injection E as -> -> _. unfold for_ in R.
  eapply for_from_ok with (lo := 0) (Inv := fun i (b : arr) => arows b = n + 1 /\ acols b = 1 /\ Z.of_nat (List.length (adata b)) = n + 1 /\
    znth (adata b) 0 = Some zero /\ forall k, 0 <= k < i -> k < n -> exists c, znth (adata (oA o f)) k = Some c /\ znth (adata b) (k + 1) = Some c) in R.
  - destruct R as (-> & B1 & B2 & B3 & B4 & B5). split; [reflexivity|].
    destruct (adata b) as [|c0 l] eqn:Eb; [cbn in B3; lia|]. exists l. cbn in B4. injection B4 as ->. cbn [List.length] in B3.
    split; [unfold asize; rewrite B1, B2; lia|]. split; [reflexivity|]. split; [lia|].
    apply begins_znth. intros k Hk. destruct (B5 k ltac:(lia) ltac:(lia)) as (c1 & C1 & C2). rewrite C1, <- C2.
    unfold znth. destruct (Z.ltb_spec (k + 1) 0); [lia|]. destruct (Z.ltb_spec k 0); [lia|]. rewrite Z2Nat.inj_add by lia. rewrite Nat.add_comm. reflexivity.
  - clear R. intros i b1 b2 o2 ev2 (B1 & B2 & B3 & B4 & B5) R. rewrite bind_run in R. cbn [getv run] in R.
    destruct (znth (adata (oA o f)) i) as [[v|]|] eqn:Ev; try discriminate R. cbn [run] in R. unfold vset in R.
    destruct (znth (adata b1) (i + 1)) as [c1|] eqn:Ei; [|discriminate R]. cbn in R. injection R as <- <- _. split; [reflexivity|]. cbn.
    assert (Hi : 0 <= i < Z.of_nat (List.length (adata (oA o f)))) by (apply znth_Some; eauto).
    assert (Hj : 0 <= i + 1 < Z.of_nat (List.length (adata b1))) by (apply znth_Some; eauto).
    split; [exact B1|]. split; [exact B2|]. split; [now rewrite zset_length|]. split; [rewrite znth_zset_other by lia; exact B4|].
    intros k Hk Hkn. destruct (Z.eq_dec k i) as [->|Hki].
    + exists (Some v). split; [exact Ev|]. now apply znth_zset_same.
    + destruct (B5 k ltac:(lia) Hkn) as (c2 & C1 & C2). exists c2. split; [exact C1|]. rewrite znth_zset_other by lia. exact C2.
  - cbn. split; [exact A1|]. split; [exact A2|]. split; [now rewrite zset_length|]. split; [apply znth_zset_same; rewrite La; lia|]. intros k Hk. lia.
Qed.
Lemma ok_zero n o ds vs w : st o ds vs w ->
  ok (zero_vec S n) w (fun a w' => (0 <= n /\ asize a = n /\ adata a = zrepeat zero n) /\ st o ds vs w').
Proof.
  intros Hs. unfold zero_vec. apply ok_pure; [exact Hs|]. intros a o' ev E. unfold zeros in E. destruct (Z.ltb_spec n 0) as [N|N]; [discriminate E|].
  cbn in E. injection E as <- <- _. unfold asize. cbn. rewrite Z.mul_1_r. auto.
Qed.
Lemma ok_new n o ds vs w : st o ds vs w ->
  ok (new_vec S n) w (fun a w' => (0 <= n /\ asize a = n /\ adata a = zrepeat None n) /\ st o ds vs w').
Proof.
  intros Hs. unfold new_vec. apply ok_pure; [exact Hs|]. intros a o' ev E. apply (new_ok a) in E. destruct E as (-> & N & A1 & A2 & A3).
  split; [reflexivity|]. split; [exact N|]. split; [|exact A3]. unfold asize. rewrite A1, A2. lia.
Qed.
Lemma ok_jlist n o ds vs w : st o ds vs w ->
  ok (lift (bind (resize empty_vec n 1) (fun a =>
    for_ 0 n a (fun j a => bind (getn N_compute_surfs j) (fun x => bind (iadd x 2) (fun y => vset a j y)))))) w
    (fun a w' => (0 <= n /\ asize a = n /\ exists l, adata a = map (option_map (fun z => z + 2)) l /\ prefix (oN o N_compute_surfs) n l) /\ st o ds vs w').
Proof.
  intros Hs. apply ok_pure; [exact Hs|]. intros b o' ev E. rewrite bind_run in E.
  destruct (run (resize empty_vec n 1) o) as [a o1 ev1| |] eqn:R; try discriminate E. apply new_ok in R. destruct R as (-> & N & A1 & A2 & A3).
  assert (La : Z.of_nat (List.length (adata a)) = n) by (rewrite A3; now apply zrepeat_len).
  destruct (run (for_ 0 n a _) o) as [b' o1 ev2| |] eqn:R; try discriminate E. cbn in E. injection E as -> -> _. unfold for_ in R.
  eapply for_from_ok with (lo := 0) (Inv := fun i (b : narr) => arows b = n /\ acols b = 1 /\ Z.of_nat (List.length (adata b)) = n /\
    forall k, 0 <= k < i -> exists z, znth (adata (oN o N_compute_surfs)) k = Some (Some z) /\ znth (adata b) k = Some (Some (z + 2))) in R.
  - destruct R as (-> & B1 & B2 & B3 & B4). split; [reflexivity|]. split; [exact N|]. split; [unfold asize; rewrite B1, B2; lia|].
    exists (firstn (Z.to_nat n) (adata (oN o N_compute_surfs))).
    assert (Ln : Z.of_nat (List.length (firstn (Z.to_nat n) (adata (oN o N_compute_surfs)))) = n).
    { destruct (Z.eq_dec n 0) as [->|]; [reflexivity|]. destruct (B4 (n - 1) ltac:(lia)) as (z & Z1 & _).
      assert (0 <= n - 1 < Z.of_nat (List.length (adata (oN o N_compute_surfs)))) by (apply znth_Some; eauto).
      rewrite firstn_length. lia. }
    split.
    + destruct (begins_pt (map (option_map (fun z => z + 2)) (firstn (Z.to_nat n) (adata (oN o N_compute_surfs)))) (adata b)) as (t & Et).
      * intros m c Hc. rewrite nth_error_map in Hc. destruct (nth_error (firstn _ _) m) as [c0|] eqn:Ec; [|discriminate Hc]. injection Hc as <-.
        assert (Hm : (m < List.length (firstn (Z.to_nat n) (adata (oN o N_compute_surfs))))%nat) by (apply nth_error_Some; congruence).
        destruct (B4 (Z.of_nat m) ltac:(lia)) as (z & Z1 & Z2). rewrite znth_nth in Z1, Z2. rewrite Z2.
        rewrite <- (firstn_skipn (Z.to_nat n) (adata (oN o N_compute_surfs))) in Z1. rewrite nth_error_app1 in Z1 by exact Hm. rewrite Ec in Z1. injection Z1 as ->. reflexivity.
      * rewrite Et. replace t with (@nil (option Z)); [now rewrite app_nil_r|]. symmetry. apply length_zero_iff_nil.
        rewrite Et, app_length, map_length in B3. lia.
    + split; [exact Ln|]. eexists. symmetry. apply firstn_skipn.
  - clear R. intros i b1 b2 o2 ev3 (B1 & B2 & B3 & B4) R. rewrite bind_run in R. cbn [getn run] in R.
    destruct (znth (adata (oN o N_compute_surfs)) i) as [[v|]|] eqn:Ev; try discriminate R. cbn [run] in R. rewrite bind_run in R. unfold iadd, int_ in R.
    destruct (in_int (v + 2)); [|discriminate R]. cbn [run] in R. unfold vset in R.
    destruct (znth (adata b1) i) as [c1|] eqn:Ei; [|discriminate R]. cbn in R. injection R as <- <- _. split; [reflexivity|]. cbn.
    assert (Hi : 0 <= i < Z.of_nat (List.length (adata b1))) by (apply znth_Some; eauto).
    split; [exact B1|]. split; [exact B2|]. split; [now rewrite zset_length|].
    intros k Hk. destruct (Z.eq_dec k i) as [->|Hki].
    + exists v. split; [exact Ev|]. now apply znth_zset_same.
    + destruct (B4 k ltac:(lia)) as (z & C1 & C2). exists z. split; [exact C1|]. rewrite znth_zset_other by lia. exact C2.
  - cbn. split; [exact A1|]. split; [exact A2|]. split; [exact La|]. intros k Hk. lia.
Qed.
Lemma ok_neg f o ds vs w : wf_arr (oA o f) -> st o ds vs w ->
  ok (lift (bind (getarr f) (neg_arr S))) w (fun b w' => (asize b = asize (oA o f) /\ adata b = map (option_map (fneg S)) (adata (oA o f))) /\ st o ds vs w').
Proof.
  intros Hw Hs. apply ok_pure; [exact Hs|]. intros b o' ev E. rewrite bind_run in E. cbn [getarr run] in E.
  destruct (run (neg_arr S (oA o f)) o) as [b' o1 ev1| |] eqn:R; try discriminate E. cbn in E. injection E as -> -> _.
  destruct Hw as (W1 & W2 & W3).
  apply neg_ok with (r := arows (oA o f)) (c := acols (oA o f)) in R; [|repeat split; exact W3]. destruct R as (-> & (B1 & B2 & B3) & B4).
  split; [reflexivity|]. split; [unfold asize; congruence|]. destruct (B4 (adata (oA o f))) as (t & Et); [exists []; now rewrite app_nil_r|].
  rewrite Et. replace t with (@nil (option F)); [now rewrite app_nil_r|]. symmetry. apply length_zero_iff_nil.
  rewrite Et, app_length, map_length in B3. lia.
Qed.

(** The end of a writing *)
Lemma deref_same env p (w1 w2 : world) n : wO w1 = wO w2 -> deref S env p w1 n = deref S env p w2 n.
Proof. intros E. destruct p; cbn; now rewrite ?E. Qed.
Lemma ok_put_all env o : forall l w g, NoDup (map fst l) -> wO w = o -> handle w h = Some (Writing x g) ->
  ok (put_all S h env l) w (fun _ w' => wO w' = o /\ exists g', handle w' h = Some (Writing x g') /\ nf_dims g' = nf_dims g /\
    map sg (nf_vars g') = map sg (nf_vars g) /\ (forall y, ~ In y (map fst l) -> find_var g' y = find_var g y) /\
    forall y p, In (y, p) l -> exists u v w0, find_var g y = Some u /\ wO w0 = o /\ deref S env p w0 (nsize (nf_dims g) (vr_dims u)) = Some v /\
      holds g' y (vr_dims u) v).
Proof.
  induction l as [|(y, p) l IH]; intros w g Hn Ho Hh.
  - apply ok_ret. split; [exact Ho|]. exists g. repeat split; auto. intros y p [].
  - cbn [put_all]. inversion Hn as [|a b N1 N2]; subst.
    apply ok_then with (P := fun c w' => match c with Err _ => True | Good _ => wO w' = wO w /\ exists u v w0, find_var g y = Some u /\ wO w0 = wO w /\
        deref S env p w0 (nsize (nf_dims g) (vr_dims u)) = Some v /\
        handle w' h = Some (Writing x (upd_var g y (fun u => mkVar (vr_name u) (vr_dims u) (vr_atts u) v))) end).
    { unfold nc_put_var. apply ok_call; [|intros; exact Logic.I]. intros w1 E1 E2. rewrite E2, Hh.
      destruct (find_var g y) as [u|]; [|exact Logic.I].
      destruct (deref S env p w1 (vlen g (vr_dims u))) as [v|] eqn:D; [|exact Logic.I].
      split; [exact E1|]. exists u, v, w1. repeat split; auto. eapply handle_put. rewrite E2. exact Hh. }
    intros [m|[]] w1 H1; [exact Logic.I|]. apply ok_bind, ok_ret. destruct H1 as (O1 & u & v & w0 & F & O0 & D & H1).
    eapply ok_mono; [apply (IH w1 _ N2 O1 H1)|]. cbv beta. intros _ w' (O' & g' & G1 & G2 & G3 & G4 & G5). split; [exact O'|]. exists g'.
    split; [exact G1|]. split; [exact G2|]. split; [rewrite G3; now apply sg_upd|]. split.
    + intros z Hz. cbn in Hz. rewrite G4 by tauto. rewrite find_upd by reflexivity. destruct (String.eqb_spec y z); [exfalso; tauto|reflexivity].
    + intros z q [E|Hin].
      * injection E as <- <-. exists u, v, w0. split; [exact F|]. split; [exact O0|]. split; [exact D|].
        exists (mkVar (vr_name u) (vr_dims u) (vr_atts u) v). split; [|auto]. cbn in N1. rewrite G4 by exact N1. rewrite find_upd by reflexivity. now rewrite String.eqb_refl, F.
      * destruct (G5 z q Hin) as (u' & v' & w2 & F' & O2 & D' & Hv). rewrite find_upd in F' by reflexivity.
        assert (Hyz : y <> z) by (intros ->; apply N1; apply in_map_iff; exists (z, q); auto).
        destruct (String.eqb_spec y z); [contradiction|]. exists u', v', w2. auto.
Qed.
Definition served env (regs : list (string * ptr)) vs ds (o : obj) (f : ncfile S) : Prop :=
  forall y p, In (y, p) regs -> exists dd v w0, lookup vs y = Some dd /\ wO w0 = o /\ deref S env p w0 (nsize ds dd) = Some v /\ holds f y dd v.
Lemma lookup_sg (g : ncfile S) y u : find_var g y = Some u -> lookup (map sg (nf_vars g)) y = Some (vr_dims u).
Proof.
  unfold find_var, lookup. induction (nf_vars g) as [|v l IH]; cbn; [discriminate|]. destruct (String.eqb (vr_name v) y); [|exact IH]. now intros [= ->].
Qed.
Lemma find_sg (g : ncfile S) y : lookup (map sg (nf_vars g)) y = None -> find_var g y = None.
Proof.
  unfold find_var, lookup. induction (nf_vars g) as [|v l IH]; cbn; [reflexivity|]. destruct (String.eqb (vr_name v) y); [discriminate|exact IH].
Qed.
Lemma ok_finish env regs o ds vs w : NoDup (map fst regs) -> st o ds vs w ->
  ok (write_and_close S (mkWr h regs) env) w (fun _ w' => exists f, wFS w' x = Some (Whole f) /\ nf_dims f = ds /\
    (forall y, lookup vs y = None -> find_var f y = None) /\ served env regs vs ds o f).
Proof.
  intros Hn Hs. unfold write_and_close. cbn [wr_id wr_regs]. apply ok_then with (P := fun _ w' => st o ds vs w').
  { unfold nc_enddef. apply ok_call; [|intros m w' E1 E2; now apply (st_same _ _ _ w)]. intros w' E1 E2. now apply (st_same _ _ _ w). }
  intros c w1 H1. destruct c as [m|[]]; [exact Logic.I|]. apply ok_bind, ok_ret. destruct H1 as (O1 & g & Hh & D & V).
  eapply ok_then; [apply (ok_put_all env o regs w1 g Hn O1 Hh)|]. cbv beta. intros ? w2 (O2 & g' & G1 & G2 & G3 & G4 & G5).
  apply ok_then with (P := fun c w' => match c with Err _ => True | Good _ => wFS w' x = Some (Whole g') end).
  { unfold nc_close. apply ok_call; [|intros; exact Logic.I]. intros w' E1 E2. rewrite E2, G1. cbn. now rewrite String.eqb_refl. }
  intros [m|[]] w3 H3; [exact Logic.I|]. apply ok_ret. exists g'. split; [exact H3|]. split; [congruence|].
  rewrite <- V, <- D. split; [intros y Hy; apply find_sg; now rewrite G3|].
  intros y p Hin. destruct (G5 y p Hin) as (u & v & w0 & F & O0 & Dr & Hv). exists (vr_dims u), v, w0. repeat split; auto. now apply lookup_sg.
Qed.
End Go.

(** What the variables of a file hold *)
Section Served.
Variables (env : list (string * lval S)) (regs : list (string * ptr)) (vs : list (string * list string)) (ds : list (string * Z)) (o : obj) (f : ncfile S).
Hypothesis H : served env regs vs ds o f.
Hypothesis Hwf : wf_obj o.
Lemma sv_I y k : In (y, MemI k) regs -> lookup vs y = Some [] -> holds f y [] (VInt [oI o k]).
Proof. intros Hi L. destruct (H _ _ Hi) as (dd & v & w0 & L' & O & D & Hv). rewrite L in L'. injection L' as <-. cbn in D. injection D as <-. now rewrite <- O. Qed.
Lemma sv_F y k : In (y, MemF k) regs -> lookup vs y = Some [] -> holds f y [] (VDbl [oF o k]).
Proof. intros Hi L. destruct (H _ _ Hi) as (dd & v & w0 & L' & O & D & Hv). rewrite L in L'. injection L' as <-. cbn in D. injection D as <-. now rewrite <- O. Qed.
Lemma sv_LI y nm z : In (y, LocI nm) regs -> lookup vs y = Some [] -> lookup env nm = Some (LI S z) -> holds f y [] (VInt [Some z]).
Proof.
  intros Hi L E. destruct (H _ _ Hi) as (dd & v & w0 & L' & O & D & Hv). rewrite L in L'. injection L' as <-. cbn [deref] in D. rewrite E in D. cbn in D. now injection D as <-.
Qed.
Lemma sv_LF y nm z : In (y, LocF nm) regs -> lookup vs y = Some [] -> lookup env nm = Some (LF S z) -> holds f y [] (VDbl [Some z]).
Proof.
  intros Hi L E. destruct (H _ _ Hi) as (dd & v & w0 & L' & O & D & Hv). rewrite L in L'. injection L' as <-. cbn [deref] in D. rewrite E in D. cbn in D. now injection D as <-.
Qed.
Lemma block_prefix {T} (a : array T) sz n l : wf_arr a -> 0 <= n -> block a sz n = Some l -> prefix a n l /\ n <= asize a /\ asize a = sz.
Proof.
  intros (W1 & W2 & W3) Hn E. unfold block in E. destruct (Z.eqb_spec (asize a) sz) as [<-|]; [|discriminate E].
  destruct (Z.leb_spec n (asize a)) as [Hl|]; [|discriminate E]. cbn in E. injection E as <-. fold (asize a) in W3. split; [|auto]. split.
  - rewrite firstn_length. lia.
  - eexists. symmetry. apply firstn_skipn.
Qed.
Lemma sv_N y k sz dd n : In (y, MemN k sz) regs -> lookup vs y = Some dd -> nsize ds dd = n -> 0 <= n ->
  exists l, prefix (oN o k) n l /\ holds f y dd (VInt l).
Proof.
  intros Hi L <- Hn. destruct (H _ _ Hi) as (dd' & v & w0 & L' & O & D & Hv). rewrite L in L'. injection L' as <-. cbn in D. rewrite O in D.
  destruct (block _ _ _) as [l|] eqn:B; [|discriminate D]. injection D as <-. apply block_prefix in B; [|apply Hwf|exact Hn]. exists l. tauto.
Qed.
Lemma sv_A y k sz dd n : In (y, MemA k sz) regs -> lookup vs y = Some dd -> nsize ds dd = n -> 0 <= n ->
  exists l, prefix (oA o k) n l /\ holds f y dd (VDbl l).
Proof.
  intros Hi L <- Hn. destruct (H _ _ Hi) as (dd' & v & w0 & L' & O & D & Hv). rewrite L in L'. injection L' as <-. cbn in D. rewrite O in D.
  destruct (block _ _ _) as [l|] eqn:B; [|discriminate D]. injection D as <-. apply block_prefix in B; [|apply Hwf|exact Hn]. exists l. tauto.
Qed.
Lemma sv_LA y nm sz dd n a : In (y, LocA nm sz) regs -> lookup vs y = Some dd -> nsize ds dd = n -> lookup env nm = Some (LA S a) ->
  holds f y dd (VDbl (firstn (Z.to_nat n) (adata a))) /\ n <= asize a /\ asize a = sz.
Proof.
  intros Hi L <- E. destruct (H _ _ Hi) as (dd' & v & w0 & L' & O & D & Hv). rewrite L in L'. injection L' as <-. cbn in D. rewrite E in D.
  unfold block in D. destruct (Z.eqb_spec (asize a) sz) as [<-|]; [|discriminate D]. destruct (Z.leb_spec (nsize ds dd) (asize a)); [|discriminate D].
  cbn in D. injection D as <-. auto.
Qed.
Lemma sv_LN y nm sz dd n a : In (y, LocN nm sz) regs -> lookup vs y = Some dd -> nsize ds dd = n -> lookup env nm = Some (LN S a) ->
  holds f y dd (VInt (firstn (Z.to_nat n) (adata a))) /\ n <= asize a /\ asize a = sz.
Proof.
  intros Hi L <- E. destruct (H _ _ Hi) as (dd' & v & w0 & L' & O & D & Hv). rewrite L in L'. injection L' as <-. cbn in D. rewrite E in D.
  unfold block in D. destruct (Z.eqb_spec (asize a) sz) as [<-|]; [|discriminate D]. destruct (Z.leb_spec (nsize ds dd) (asize a)); [|discriminate D].
  cbn in D. injection D as <-. auto.
Qed.
Lemma sv_LS y nm dd s : In (y, LocS nm (Z.of_nat (String.length s))) regs -> lookup vs y = Some dd -> nsize ds dd = Z.of_nat (String.length s) -> lookup env nm = Some (LS S s) ->
  holds f y dd (VChar s).
Proof.
  intros Hi L Hn E. destruct (H _ _ Hi) as (dd' & v & w0 & L' & O & D & Hv). rewrite L in L'. injection L' as <-.
  rewrite (d_LS S env nm s w0 _ E Hn) in D. now injection D as <-.
Qed.
End Served.
End Proof.

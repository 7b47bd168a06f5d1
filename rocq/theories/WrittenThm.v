(** Property C79: the theorem on write_boozmn. *)
From Coq Require Import ZArith List String Bool Lia.
From Verif Require Import Scalar Prog Model Wp Func FuncExt Spec Vmec Nc NcModel NcSpec NcVoc NcWrite NcThms NcThms2 NcThms3 NcThms4 Py Frame FrameThms ReadAll Stored Written.
Import ListNotations.
Local Open Scope Z_scope.
Local Open Scope io_scope.

Section Thm.
Context {S : Scalar}.
Variable version : string.
Notation obj := (obj S).
Notation world := (world S).

Lemma ok_phip (o : obj) x h ds vs w : st x h o ds vs w ->
  ok (lift (putv A_phip 0 (fofZ S 0))) w (fun _ w' => (exists c, znth (adata (oA o A_phip)) 0 = Some c) /\ st x h (updA o A_phip (aput (oA o A_phip) 0 (fofZ S 0))) ds vs w').
Proof.
  intros Hs. apply ok_lift. intros a o' ev E. rewrite (proj1 Hs) in E. cbn in E. destruct (znth (adata (oA o A_phip)) 0) as [c|]; [|discriminate E].
  cbn in E. injection E as _ <- _. split; [eauto|]. eapply st_ev; eassumption.
Qed.
Lemma ok_size k (o : obj) x h ds vs w : st x h o ds vs w ->
  ok (lift (bind (getarr k) (fun a => Ret (asize a)))) w (fun n w' => n = asize (oA o k) /\ st x h o ds vs w').
Proof. intros Hs. apply (ok_pure x h _ (fun n => n = asize (oA o k))); [exact Hs|]. intros a o' ev E. cbn in E. now injection E as <- <- _. Qed.

(** What a file holds after write_boozmn has written an object *)
Definition written (o : obj) (f : ncfile S) : Prop :=
  exists mn ns nb asy, oI o I_mnboz = Some mn /\ oI o I_ns_in = Some ns /\ oI o I_ns_b = Some nb /\ oB o B_asym = Some asy /\ 0 <= mn /\ 0 <= ns /\ 0 <= nb /\
  dim f "radius" (ns + 1) /\ dim f "mn_mode" mn /\ dim f "mn_modes" mn /\ dim f "comput_surfs" nb /\ dim f "pack_rad" nb /\
  holds f "version" [dim_str (String.length ("C++/Python booz_xform " ++ version))] (VChar ("C++/Python booz_xform " ++ version)) /\
  holds f "lasym__logical__" [] (VInt [Some (if asy then 1 else 0)]) /\ holds f "ns_b" [] (VInt [Some (ns + 1)]) /\
  (forall y k, In (y, k) booz_scalars -> holds f y [] (VInt [oI o k])) /\
  holds f "aspect_b" [] (VDbl [oF o F_aspect]) /\
  (forall y, In y ["rmax_b"; "rmin_b"; "betaxis_b"]%string -> holds f y [] (VDbl [zero])) /\
  holds f "jlist" ["comput_surfs"]%string (VInt (map (option_map (fun z => z + 2)) (adata (oN o N_compute_surfs)))) /\ asize (oN o N_compute_surfs) = nb /\
  (forall y k, In (y, k) booz_modes -> exists l, prefix (oN o k) mn l /\ holds f y ["mn_modes"]%string (VInt l)) /\
  (forall y k, In (y, k) radial -> exists l, prefix (oA o k) ns l /\ holds f y ["radius"]%string (VDbl (zero :: l))) /\
  (asize (oA o A_phip) = 0 -> forall y, In y ["beta_b"; "phip_b"; "chi_b"; "pres_b"; "phi_b"]%string ->
     holds f y ["radius"]%string (VDbl (zrepeat zero (ns + 1)))) /\
  (asize (oA o A_phip) <> 0 ->
     holds f "beta_b" ["radius"]%string (VDbl (zrepeat None (ns + 1))) /\
     (exists c l, prefix (oA o A_phip) (ns + 1) (c :: l) /\ holds f "phip_b" ["radius"]%string (VDbl (zero :: l))) /\
     forall y k, In (y, k) fluxes -> exists l, prefix (oA o k) (ns + 1) l /\ holds f y ["radius"]%string (VDbl l)) /\
  (forall y k, In (y, k) booz_matrices -> exists l, prefix (oA o k) (nb * mn) l /\ holds f y ["pack_rad"; "mn_modes"]%string (VDbl l)) /\
  (exists l, prefix (oA o A_numns_b) (nb * mn) l /\ holds f "pmns_b" ["pack_rad"; "mn_modes"]%string (VDbl (map (option_map (fneg S)) l))) /\
  (asy = true ->
     (forall y k, In (y, k) booz_matrices_asym -> exists l, prefix (oA o k) (nb * mn) l /\ holds f y ["pack_rad"; "mn_modes"]%string (VDbl l)) /\
     exists l, prefix (oA o A_numnc_b) (nb * mn) l /\ holds f "pmnc_b" ["pack_rad"; "mn_modes"]%string (VDbl (map (option_map (fneg S)) l))) /\
  (asy = false -> forall y, In y ["bmns_b"; "rmns_b"; "zmnc_b"; "pmnc_b"; "gmns_b"]%string -> find_var f y = None).

Ltac stp L := eapply ok_then; [eapply L; eassumption|]; cbv beta.
Ltac put L := stp L; let nc := fresh "nc" in let w := fresh "w" in let E := fresh "E" in let H := fresh "H" in intros nc w (E & H); subst nc.
Ltac local L := stp L; let a := fresh "a" in let w := fresh "w" in let H := fresh "H" in intros a w (?Ha & H).

Ltac isin := cbn [In app]; repeat (first [left; reflexivity | right]).
Fixpoint distinct (l : list string) : bool := match l with [] => true | y :: l => negb (existsb (String.eqb y) l) && distinct l end.
Lemma distinct_NoDup l : distinct l = true -> NoDup l.
Proof.
  induction l as [|y l IH]; intros H; [constructor|]. cbn in H. apply andb_prop in H. destruct H as (H1 & H2). constructor; [|now apply IH].
  intros N. rewrite negb_true_iff in H1. rewrite <- not_true_iff_false in H1. apply H1, existsb_exists. exists y. split; [exact N|apply String.eqb_refl].
Qed.
Ltac fin_ :=
  match goal with H : st _ _ ?o1 _ _ ?w |- ok _ ?w _ =>
    cbn [app] in H |- *; eapply ok_mono; [eapply ok_finish; [|exact H]; apply distinct_NoDup; reflexivity|];
    cbv beta; intros ? ?w' (f & Hfs & Hds & Hno & Hsv); exists f; split; [exact Hfs|]; clear H
  end.

Lemma ds_version a b c len n : nsize [("radius", a); ("mn_mode", b); ("mn_modes", b); ("comput_surfs", c); ("pack_rad", c); (dim_str n, len)]%string [dim_str n] = len.
Proof.
  unfold nsize, lookup. cbn [fold_right find fst snd].
  change (String.eqb "radius" (dim_str n)) with false. change (String.eqb "mn_mode" (dim_str n)) with false. change (String.eqb "mn_modes" (dim_str n)) with false.
  change (String.eqb "comput_surfs" (dim_str n)) with false. change (String.eqb "pack_rad" (dim_str n)) with false. cbv iota. rewrite String.eqb_refl. cbn [snd]. lia.
Qed.
Lemma all_of {T} (a : array T) n l : wf_arr a -> asize a = n -> prefix a n l -> l = adata a.
Proof.
  intros (_ & _ & W) E (L & t & Et). fold (asize a) in W. rewrite Et in *. rewrite app_length in W.
  replace t with (@nil (option T)); [now rewrite app_nil_r|]. symmetry. apply length_zero_iff_nil. lia.
Qed.
Lemma all_first {T} (l : list T) n : Z.of_nat (List.length l) = n -> firstn (Z.to_nat n) l = l.
Proof. intros <-. rewrite Nat2Z.id. apply firstn_all. Qed.
Lemma all_zeros {T} (c : T) n : 0 <= n -> firstn (Z.to_nat n) (zrepeat c n) = zrepeat c n.
Proof. intros H. apply all_first. now apply zrepeat_len. Qed.
Lemma map_prefix {T} (a : array T) n (g : option T -> option T) : wf_arr a -> 0 <= n <= asize a ->
  exists l, prefix a n l /\ firstn (Z.to_nat n) (map g (adata a)) = map g l.
Proof.
  intros (_ & _ & W) Hn. fold (asize a) in W. exists (firstn (Z.to_nat n) (adata a)). split; [|now rewrite firstn_map]. split.
  - rewrite firstn_length. lia.
  - eexists. symmetry. apply firstn_skipn.
Qed.

Lemma wf_phip (o : obj) c : wf_obj o -> wf_obj (updA o A_phip (aput (oA o A_phip) 0 c)).
Proof.
  intros Hw. constructor; [apply Hw|]. intros k. cbn. destruct (afield_eq_dec k A_phip) as [_|_]; [|apply Hw].
  destruct (wf_A o Hw A_phip) as (W1 & W2 & W3). repeat split; cbn; auto. now rewrite zset_length.
Qed.

Theorem boozmn_written x (w w' : world) : wf_obj (wO w) -> write_boozmn S version x w = IOk tt w' ->
  exists f, wFS w' x = Some (Whole f) /\ written (wO w) f.
Proof.
  intros Hwf E. set (o := wO w) in *.
  enough (G : ok (write_boozmn S version x) w (fun _ w' => exists f, wFS w' x = Some (Whole f) /\ written o f)).
  { unfold ok in G. now rewrite E in G. }
  clear E w'. unfold write_boozmn.
  apply ok_then with (P := fun _ w' => wO w' = o).
  { unfold chatter. apply ok_lift. intros a o' ev E. cbn in E. cbn. fold o in E. destruct (oI o I_verbose) as [v|]; [|discriminate E]. cbn in E.
    destruct (0 <? v); cbn in E; now injection E as _ <- _. }
  intros ? w0 O0.
  apply ok_then with (P := fun nc w' => exists h, nc = mkWr h [] /\ st x h o [] [] w').
  { unfold new_writer. apply ok_then with (P := fun c w' => match c with Err _ => True | Good h => st x h o [] [] w' end).
    - unfold nc_create. apply ok_call; [|intros; exact Logic.I]. intros w1 E1 E2. cbn. split; [cbn; congruence|]. exists (mkFile [] []). split; [|split; reflexivity].
      unfold handle. cbn. now rewrite Z.eqb_refl.
    - intros [m|h] w1 H1; [exact Logic.I|]. apply ok_bind, ok_ret, ok_ret. eauto. }
  intros nc w1 (h & -> & H1).
  stp @ok_geti. intros ns w2 (Ens & H2).
  stp @ok_iadd. intros n1 w3 (-> & H3).
  stp @ok_wdim. intros ? w4 (H4 & N4).
  stp @ok_geti. intros mn w5 (Emn & H5).
  stp @ok_wdim. intros ? w6 (H6 & N6).
  stp @ok_wdim. intros ? w7 (H7 & N7).
  stp @ok_sizen. intros ncs w8 (-> & H8).
  stp @ok_wdim. intros ? w9 (H9 & N9).
  stp @ok_wdim. intros ? w10 (H10 & N10).
  cbv zeta. cbn [app] in H10.
  eapply ok_then; [eapply ok_put_string; [|exact H10]; reflexivity|]. cbv beta. intros nc w11 (-> & H11).
  stp @ok_getb. intros asy w12 (Eas & H12).
  put @ok_put. put @ok_put. put @ok_put. put @ok_put. put @ok_put. put @ok_put. put @ok_put. put @ok_put. put @ok_put. put @ok_put.
  stp @ok_geti. intros nb wb (Enb & Hb).
  stp @ok_jlist. intros jl wj ((Nb & Aj & lj & Dj & Pj) & Hj).
  put @ok_put. put @ok_put_ints. put @ok_put_ints.
  stp @ok_prepend. intros iota wi ((li & Ai & Di & Pi) & Hi).
  stp @ok_prepend. intros buco wu ((lu & Au & Du & Pu) & Hu).
  stp @ok_prepend. intros bvco wv ((lv & Av & Dv & Pv) & Hv).
  put @ok_put. put @ok_put. put @ok_put.
  stp @ok_new. intros pres wp ((Np & Ap & Dp) & Hp).
  put @ok_put.
  stp @ok_zero. intros z1 wz1 ((_ & Az1 & Dz1) & Hz1).
  stp @ok_zero. intros z2 wz2 ((_ & Az2 & Dz2) & Hz2).
  stp @ok_zero. intros z3 wz3 ((_ & Az3 & Dz3) & Hz3).
  stp @ok_size. intros nph wn (-> & Hn).
  cbn [app] in Hn.
  apply ok_bind. destruct (Z.eqb_spec (asize (oA o A_phip)) 0) as [Hph|Hph].
  - stp @ok_zero. intros pr wr ((_ & Ar & Dr) & Hr).
    put @ok_put. put @ok_put. put @ok_put. put @ok_put. apply ok_ret. cbv beta iota.
    put @ok_put_mat. put @ok_put_mat. put @ok_put_mat.
    eapply ok_then; [eapply ok_neg; [apply Hwf|eassumption]|]. cbv beta. intros ps wps ((Aps & Dps) & Hps).
    put @ok_put_local_mat. put @ok_put_mat.
    apply ok_bind. destruct asy.
    + put @ok_put_mat. put @ok_put_mat. put @ok_put_mat.
      eapply ok_then; [eapply ok_neg; [apply Hwf|eassumption]|]. cbv beta. intros pc wpc ((Apc & Dpc) & Hpc).
      put @ok_put_local_mat. put @ok_put_mat. apply ok_ret. cbv beta iota.
      fin_.
      destruct (sv_LN _ _ _ _ _ _ Hsv "jlist"%string "jlist"%string (asize jl) ["comput_surfs"]%string (asize (oN o N_compute_surfs) * 1) jl) as (Hjl & Ljl & _); [isin|reflexivity|reflexivity|reflexivity|].
      assert (Wcs : Z.of_nat (List.length (adata (oN o N_compute_surfs))) = asize (oN o N_compute_surfs)) by apply (proj1 (wf_N o Hwf N_compute_surfs)).
      assert (Ecs : asize (oN o N_compute_surfs) = nb).
      { destruct Pj as (P1 & t & P2). rewrite P2, app_length in Wcs. lia. }
      assert (Ej : lj = adata (oN o N_compute_surfs)) by (apply (all_of _ nb); [apply Hwf|exact Ecs|exact Pj]). subst lj.
      assert (Nns : 0 <= ns) by (destruct Pi as (P1 & _); lia).
      exists mn, ns, nb, true. do 7 (split; [assumption|]).
      split; [unfold dim; rewrite Hds; reflexivity|]. split; [unfold dim; rewrite Hds; reflexivity|]. split; [unfold dim; rewrite Hds; reflexivity|].
      split; [unfold dim; rewrite Hds, <- Ecs; reflexivity|]. split; [unfold dim; rewrite Hds, <- Ecs; reflexivity|].
      split; [eapply (sv_LS _ _ _ _ _ _ Hsv); [isin|reflexivity|apply ds_version|reflexivity]|].
      split; [eapply (sv_LI _ _ _ _ _ _ Hsv); [isin|reflexivity|reflexivity]|].
      split; [eapply (sv_LI _ _ _ _ _ _ Hsv); [isin|reflexivity|reflexivity]|].
      split.
      { intros y k Hin. cbn in Hin. repeat (destruct Hin as [Hin|Hin]; [injection Hin as <- <-; apply (sv_I _ _ _ _ o _ Hsv); [isin|reflexivity]|]). destruct Hin. }
      split; [apply (sv_F _ _ _ _ o _ Hsv); [isin|reflexivity]|].
      split.
      { intros y Hin. cbn in Hin. repeat (destruct Hin as [Hin|Hin]; [subst y; eapply (sv_LF _ _ _ _ _ _ Hsv); [isin|reflexivity|reflexivity]|]). destruct Hin. }
      split; [rewrite Dj, all_first in Hjl by (rewrite map_length; lia); exact Hjl|]. split; [exact Ecs|].
      split.
      { intros y k Hin. cbn in Hin. repeat (destruct Hin as [Hin|Hin]; [injection Hin as <- <-; eapply (sv_N _ _ _ _ o _ Hsv Hwf); [isin|reflexivity|apply Z.mul_1_r|exact N6]|]). destruct Hin. }
      split.
      { intros y k Hin. cbn in Hin. destruct Hin as [Hin|[Hin|[Hin|[]]]]; injection Hin as <- <-.
        - exists li. split; [exact Pi|]. edestruct (sv_LA _ _ _ _ _ _ Hsv "iota_b"%string "iota_b"%string (asize iota) ["radius"]%string ((ns + 1) * 1) iota) as (Hh & _); [isin|reflexivity|reflexivity|reflexivity|].
          rewrite Di, all_first in Hh by (cbn [List.length]; destruct Pi as (P1 & _); lia). exact Hh.
        - exists lu. split; [exact Pu|]. edestruct (sv_LA _ _ _ _ _ _ Hsv "buco_b"%string "buco_b"%string (asize buco) ["radius"]%string ((ns + 1) * 1) buco) as (Hh & _); [isin|reflexivity|reflexivity|reflexivity|].
          rewrite Du, all_first in Hh by (cbn [List.length]; destruct Pu as (P1 & _); lia). exact Hh.
        - exists lv. split; [exact Pv|]. edestruct (sv_LA _ _ _ _ _ _ Hsv "bvco_b"%string "bvco_b"%string (asize bvco) ["radius"]%string ((ns + 1) * 1) bvco) as (Hh & _); [isin|reflexivity|reflexivity|reflexivity|].
          rewrite Dv, all_first in Hh by (cbn [List.length]; destruct Pv as (P1 & _); lia). exact Hh.
      }
      split.
      { intros _ y Hin. cbn in Hin. destruct Hin as [Hin|[Hin|[Hin|[Hin|[Hin|[]]]]]]; subst y.
        - edestruct (sv_LA _ _ _ _ _ _ Hsv "beta_b"%string "pres_b"%string (asize pres) ["radius"]%string ((ns + 1) * 1) pr) as (Hh & _); [isin|reflexivity|reflexivity|reflexivity|].
          rewrite Dr, Z.mul_1_r, all_zeros in Hh by lia. exact Hh.
        - edestruct (sv_LA _ _ _ _ _ _ Hsv "phip_b"%string "phip_dummy"%string (asize z1) ["radius"]%string ((ns + 1) * 1) z1) as (Hh & _); [isin|reflexivity|reflexivity|reflexivity|].
          rewrite Dz1, Z.mul_1_r, all_zeros in Hh by lia. exact Hh.
        - edestruct (sv_LA _ _ _ _ _ _ Hsv "chi_b"%string "chi_dummy"%string (asize z2) ["radius"]%string ((ns + 1) * 1) z2) as (Hh & _); [isin|reflexivity|reflexivity|reflexivity|].
          rewrite Dz2, Z.mul_1_r, all_zeros in Hh by lia. exact Hh.
        - edestruct (sv_LA _ _ _ _ _ _ Hsv "pres_b"%string "pres_b"%string (asize pr) ["radius"]%string ((ns + 1) * 1) pr) as (Hh & _); [isin|reflexivity|reflexivity|reflexivity|].
          rewrite Dr, Z.mul_1_r, all_zeros in Hh by lia. exact Hh.
        - edestruct (sv_LA _ _ _ _ _ _ Hsv "phi_b"%string "phi_dummy"%string (asize z3) ["radius"]%string ((ns + 1) * 1) z3) as (Hh & _); [isin|reflexivity|reflexivity|reflexivity|].
          rewrite Dz3, Z.mul_1_r, all_zeros in Hh by lia. exact Hh.
      }
      split; [intros N; contradiction|].
      assert (Nmat : nsize [("radius", ns + 1); ("mn_mode", mn); ("mn_modes", mn); ("comput_surfs", asize (oN o N_compute_surfs)); ("pack_rad", asize (oN o N_compute_surfs)); (dim_str (String.length ("C++/Python booz_xform " ++ version)), Z.of_nat (String.length ("C++/Python booz_xform " ++ version)))]%string ["pack_rad"; "mn_modes"]%string = nb * mn) by (rewrite <- Ecs; cbn; now rewrite Z.mul_1_r).
      assert (Npos : 0 <= nb * mn) by (apply Z.mul_nonneg_nonneg; assumption).
      split.
      { intros y k Hin. cbn in Hin. repeat (destruct Hin as [Hin|Hin]; [injection Hin as <- <-; match goal with |- exists l, prefix (oA o ?k) _ l /\ holds f ?y _ _ => eapply ((sv_A _ _ _ _ o _ Hsv Hwf) y k); [isin|reflexivity|exact Nmat|exact Npos] end|]). destruct Hin. }
      split.
      { edestruct (sv_LA _ _ _ _ _ _ Hsv "pmns_b"%string "pmns_b"%string (asize ps) ["pack_rad"; "mn_modes"]%string (nb * mn) ps) as (Hh & Lh & _); [isin|reflexivity|exact Nmat|reflexivity|].
        destruct (map_prefix (oA o A_numns_b) (nb * mn) (option_map (fneg S))) as (l & Pl & El); [apply Hwf|split; [exact Npos|rewrite <- Aps; exact Lh]|].
        exists l. split; [exact Pl|]. rewrite Dps in Hh.  rewrite El in Hh. exact Hh. }
      split; [|discriminate].
      intros _. split.
      { intros y k Hin. cbn in Hin. repeat (destruct Hin as [Hin|Hin]; [injection Hin as <- <-; match goal with |- exists l, prefix (oA o ?k) _ l /\ holds f ?y _ _ => eapply ((sv_A _ _ _ _ o _ Hsv Hwf) y k); [isin|reflexivity|exact Nmat|exact Npos] end|]). destruct Hin. }
      { edestruct (sv_LA _ _ _ _ _ _ Hsv "pmnc_b"%string "pmnc_b"%string (asize pc) ["pack_rad"; "mn_modes"]%string (nb * mn) pc) as (Hh & Lh & _); [isin|reflexivity|exact Nmat|reflexivity|].
        destruct (map_prefix (oA o A_numnc_b) (nb * mn) (option_map (fneg S))) as (l & Pl & El); [apply Hwf|split; [exact Npos|rewrite <- Apc; exact Lh]|].
        exists l. split; [exact Pl|]. rewrite Dpc in Hh.  rewrite El in Hh. exact Hh. }
    + apply ok_ret. cbv beta iota.
      fin_.
      destruct (sv_LN _ _ _ _ _ _ Hsv "jlist"%string "jlist"%string (asize jl) ["comput_surfs"]%string (asize (oN o N_compute_surfs) * 1) jl) as (Hjl & Ljl & _); [isin|reflexivity|reflexivity|reflexivity|].
      assert (Wcs : Z.of_nat (List.length (adata (oN o N_compute_surfs))) = asize (oN o N_compute_surfs)) by apply (proj1 (wf_N o Hwf N_compute_surfs)).
      assert (Ecs : asize (oN o N_compute_surfs) = nb).
      { destruct Pj as (P1 & t & P2). rewrite P2, app_length in Wcs. lia. }
      assert (Ej : lj = adata (oN o N_compute_surfs)) by (apply (all_of _ nb); [apply Hwf|exact Ecs|exact Pj]). subst lj.
      assert (Nns : 0 <= ns) by (destruct Pi as (P1 & _); lia).
      exists mn, ns, nb, false. do 7 (split; [assumption|]).
      split; [unfold dim; rewrite Hds; reflexivity|]. split; [unfold dim; rewrite Hds; reflexivity|]. split; [unfold dim; rewrite Hds; reflexivity|].
      split; [unfold dim; rewrite Hds, <- Ecs; reflexivity|]. split; [unfold dim; rewrite Hds, <- Ecs; reflexivity|].
      split; [eapply (sv_LS _ _ _ _ _ _ Hsv); [isin|reflexivity|apply ds_version|reflexivity]|].
      split; [eapply (sv_LI _ _ _ _ _ _ Hsv); [isin|reflexivity|reflexivity]|].
      split; [eapply (sv_LI _ _ _ _ _ _ Hsv); [isin|reflexivity|reflexivity]|].
      split.
      { intros y k Hin. cbn in Hin. repeat (destruct Hin as [Hin|Hin]; [injection Hin as <- <-; apply (sv_I _ _ _ _ o _ Hsv); [isin|reflexivity]|]). destruct Hin. }
      split; [apply (sv_F _ _ _ _ o _ Hsv); [isin|reflexivity]|].
      split.
      { intros y Hin. cbn in Hin. repeat (destruct Hin as [Hin|Hin]; [subst y; eapply (sv_LF _ _ _ _ _ _ Hsv); [isin|reflexivity|reflexivity]|]). destruct Hin. }
      split; [rewrite Dj, all_first in Hjl by (rewrite map_length; lia); exact Hjl|]. split; [exact Ecs|].
      split.
      { intros y k Hin. cbn in Hin. repeat (destruct Hin as [Hin|Hin]; [injection Hin as <- <-; eapply (sv_N _ _ _ _ o _ Hsv Hwf); [isin|reflexivity|apply Z.mul_1_r|exact N6]|]). destruct Hin. }
      split.
      { intros y k Hin. cbn in Hin. destruct Hin as [Hin|[Hin|[Hin|[]]]]; injection Hin as <- <-.
        - exists li. split; [exact Pi|]. edestruct (sv_LA _ _ _ _ _ _ Hsv "iota_b"%string "iota_b"%string (asize iota) ["radius"]%string ((ns + 1) * 1) iota) as (Hh & _); [isin|reflexivity|reflexivity|reflexivity|].
          rewrite Di, all_first in Hh by (cbn [List.length]; destruct Pi as (P1 & _); lia). exact Hh.
        - exists lu. split; [exact Pu|]. edestruct (sv_LA _ _ _ _ _ _ Hsv "buco_b"%string "buco_b"%string (asize buco) ["radius"]%string ((ns + 1) * 1) buco) as (Hh & _); [isin|reflexivity|reflexivity|reflexivity|].
          rewrite Du, all_first in Hh by (cbn [List.length]; destruct Pu as (P1 & _); lia). exact Hh.
        - exists lv. split; [exact Pv|]. edestruct (sv_LA _ _ _ _ _ _ Hsv "bvco_b"%string "bvco_b"%string (asize bvco) ["radius"]%string ((ns + 1) * 1) bvco) as (Hh & _); [isin|reflexivity|reflexivity|reflexivity|].
          rewrite Dv, all_first in Hh by (cbn [List.length]; destruct Pv as (P1 & _); lia). exact Hh.
      }
      split.
      { intros _ y Hin. cbn in Hin. destruct Hin as [Hin|[Hin|[Hin|[Hin|[Hin|[]]]]]]; subst y.
        - edestruct (sv_LA _ _ _ _ _ _ Hsv "beta_b"%string "pres_b"%string (asize pres) ["radius"]%string ((ns + 1) * 1) pr) as (Hh & _); [isin|reflexivity|reflexivity|reflexivity|].
          rewrite Dr, Z.mul_1_r, all_zeros in Hh by lia. exact Hh.
        - edestruct (sv_LA _ _ _ _ _ _ Hsv "phip_b"%string "phip_dummy"%string (asize z1) ["radius"]%string ((ns + 1) * 1) z1) as (Hh & _); [isin|reflexivity|reflexivity|reflexivity|].
          rewrite Dz1, Z.mul_1_r, all_zeros in Hh by lia. exact Hh.
        - edestruct (sv_LA _ _ _ _ _ _ Hsv "chi_b"%string "chi_dummy"%string (asize z2) ["radius"]%string ((ns + 1) * 1) z2) as (Hh & _); [isin|reflexivity|reflexivity|reflexivity|].
          rewrite Dz2, Z.mul_1_r, all_zeros in Hh by lia. exact Hh.
        - edestruct (sv_LA _ _ _ _ _ _ Hsv "pres_b"%string "pres_b"%string (asize pr) ["radius"]%string ((ns + 1) * 1) pr) as (Hh & _); [isin|reflexivity|reflexivity|reflexivity|].
          rewrite Dr, Z.mul_1_r, all_zeros in Hh by lia. exact Hh.
        - edestruct (sv_LA _ _ _ _ _ _ Hsv "phi_b"%string "phi_dummy"%string (asize z3) ["radius"]%string ((ns + 1) * 1) z3) as (Hh & _); [isin|reflexivity|reflexivity|reflexivity|].
          rewrite Dz3, Z.mul_1_r, all_zeros in Hh by lia. exact Hh.
      }
      split; [intros N; contradiction|].
      assert (Nmat : nsize [("radius", ns + 1); ("mn_mode", mn); ("mn_modes", mn); ("comput_surfs", asize (oN o N_compute_surfs)); ("pack_rad", asize (oN o N_compute_surfs)); (dim_str (String.length ("C++/Python booz_xform " ++ version)), Z.of_nat (String.length ("C++/Python booz_xform " ++ version)))]%string ["pack_rad"; "mn_modes"]%string = nb * mn) by (rewrite <- Ecs; cbn; now rewrite Z.mul_1_r).
      assert (Npos : 0 <= nb * mn) by (apply Z.mul_nonneg_nonneg; assumption).
      split.
      { intros y k Hin. cbn in Hin. repeat (destruct Hin as [Hin|Hin]; [injection Hin as <- <-; match goal with |- exists l, prefix (oA o ?k) _ l /\ holds f ?y _ _ => eapply ((sv_A _ _ _ _ o _ Hsv Hwf) y k); [isin|reflexivity|exact Nmat|exact Npos] end|]). destruct Hin. }
      split.
      { edestruct (sv_LA _ _ _ _ _ _ Hsv "pmns_b"%string "pmns_b"%string (asize ps) ["pack_rad"; "mn_modes"]%string (nb * mn) ps) as (Hh & Lh & _); [isin|reflexivity|exact Nmat|reflexivity|].
        destruct (map_prefix (oA o A_numns_b) (nb * mn) (option_map (fneg S))) as (l & Pl & El); [apply Hwf|split; [exact Npos|rewrite <- Aps; exact Lh]|].
        exists l. split; [exact Pl|]. rewrite Dps in Hh.  rewrite El in Hh. exact Hh. }
      split; [discriminate|].
      intros _ y Hin. apply Hno. cbn in Hin. repeat (destruct Hin as [Hin|Hin]; [subst y; reflexivity|]). destruct Hin.
  - stp @ok_phip. intros ? wr (Hc & Hr).
    put @ok_put_arr. put @ok_put_arr. put @ok_put_arr. put @ok_put_arr. apply ok_ret. cbv beta iota.
    put @ok_put_mat. put @ok_put_mat. put @ok_put_mat.
    eapply ok_then; [eapply ok_neg; [apply (wf_phip o (fofZ S 0) Hwf)|eassumption]|]. cbv beta. intros ps wps ((Aps & Dps) & Hps).
    change (oA (updA o A_phip (aput (oA o A_phip) 0 (fofZ S 0))) A_numns_b) with (oA o A_numns_b) in Aps, Dps.
    put @ok_put_local_mat. put @ok_put_mat.
    apply ok_bind. destruct asy.
    + put @ok_put_mat. put @ok_put_mat. put @ok_put_mat.
      eapply ok_then; [eapply ok_neg; [apply (wf_phip o (fofZ S 0) Hwf)|eassumption]|]. cbv beta. intros pc wpc ((Apc & Dpc) & Hpc).
      change (oA (updA o A_phip (aput (oA o A_phip) 0 (fofZ S 0))) A_numnc_b) with (oA o A_numnc_b) in Apc, Dpc.
      put @ok_put_local_mat. put @ok_put_mat. apply ok_ret. cbv beta iota.
      fin_.
      pose proof (wf_phip o (fofZ S 0) Hwf) as Hwf1.
      destruct (sv_LN _ _ _ _ _ _ Hsv "jlist"%string "jlist"%string (asize jl) ["comput_surfs"]%string (asize (oN o N_compute_surfs) * 1) jl) as (Hjl & Ljl & _); [isin|reflexivity|reflexivity|reflexivity|].
      assert (Wcs : Z.of_nat (List.length (adata (oN o N_compute_surfs))) = asize (oN o N_compute_surfs)) by apply (proj1 (wf_N o Hwf N_compute_surfs)).
      assert (Ecs : asize (oN o N_compute_surfs) = nb).
      { destruct Pj as (P1 & t & P2). rewrite P2, app_length in Wcs. lia. }
      assert (Ej : lj = adata (oN o N_compute_surfs)) by (apply (all_of _ nb); [apply Hwf|exact Ecs|exact Pj]). subst lj.
      assert (Nns : 0 <= ns) by (destruct Pi as (P1 & _); lia).
      exists mn, ns, nb, true. do 7 (split; [assumption|]).
      split; [unfold dim; rewrite Hds; reflexivity|]. split; [unfold dim; rewrite Hds; reflexivity|]. split; [unfold dim; rewrite Hds; reflexivity|].
      split; [unfold dim; rewrite Hds, <- Ecs; reflexivity|]. split; [unfold dim; rewrite Hds, <- Ecs; reflexivity|].
      split; [eapply (sv_LS _ _ _ _ _ _ Hsv); [isin|reflexivity|apply ds_version|reflexivity]|].
      split; [eapply (sv_LI _ _ _ _ _ _ Hsv); [isin|reflexivity|reflexivity]|].
      split; [eapply (sv_LI _ _ _ _ _ _ Hsv); [isin|reflexivity|reflexivity]|].
      split.
      { intros y k Hin. cbn in Hin. repeat (destruct Hin as [Hin|Hin]; [injection Hin as <- <-; apply (sv_I _ _ _ _ (updA o A_phip (aput (oA o A_phip) 0 (fofZ S 0))) _ Hsv); [isin|reflexivity]|]). destruct Hin. }
      split; [apply (sv_F _ _ _ _ (updA o A_phip (aput (oA o A_phip) 0 (fofZ S 0))) _ Hsv); [isin|reflexivity]|].
      split.
      { intros y Hin. cbn in Hin. repeat (destruct Hin as [Hin|Hin]; [subst y; eapply (sv_LF _ _ _ _ _ _ Hsv); [isin|reflexivity|reflexivity]|]). destruct Hin. }
      split; [rewrite Dj, all_first in Hjl by (rewrite map_length; lia); exact Hjl|]. split; [exact Ecs|].
      split.
      { intros y k Hin. cbn in Hin. repeat (destruct Hin as [Hin|Hin]; [injection Hin as <- <-; eapply (sv_N _ _ _ _ (updA o A_phip (aput (oA o A_phip) 0 (fofZ S 0))) _ Hsv Hwf1); [isin|reflexivity|apply Z.mul_1_r|exact N6]|]). destruct Hin. }
      split.
      { intros y k Hin. cbn in Hin. destruct Hin as [Hin|[Hin|[Hin|[]]]]; injection Hin as <- <-.
        - exists li. split; [exact Pi|]. edestruct (sv_LA _ _ _ _ _ _ Hsv "iota_b"%string "iota_b"%string (asize iota) ["radius"]%string ((ns + 1) * 1) iota) as (Hh & _); [isin|reflexivity|reflexivity|reflexivity|].
          rewrite Di, all_first in Hh by (cbn [List.length]; destruct Pi as (P1 & _); lia). exact Hh.
        - exists lu. split; [exact Pu|]. edestruct (sv_LA _ _ _ _ _ _ Hsv "buco_b"%string "buco_b"%string (asize buco) ["radius"]%string ((ns + 1) * 1) buco) as (Hh & _); [isin|reflexivity|reflexivity|reflexivity|].
          rewrite Du, all_first in Hh by (cbn [List.length]; destruct Pu as (P1 & _); lia). exact Hh.
        - exists lv. split; [exact Pv|]. edestruct (sv_LA _ _ _ _ _ _ Hsv "bvco_b"%string "bvco_b"%string (asize bvco) ["radius"]%string ((ns + 1) * 1) bvco) as (Hh & _); [isin|reflexivity|reflexivity|reflexivity|].
          rewrite Dv, all_first in Hh by (cbn [List.length]; destruct Pv as (P1 & _); lia). exact Hh.
      }
      split; [intros N; contradiction|].
      split.
      { intros _. split; [|split].
        - edestruct (sv_LA _ _ _ _ _ _ Hsv "beta_b"%string "pres_b"%string (asize pres) ["radius"]%string ((ns + 1) * 1) pres) as (Hh & _); [isin|reflexivity|reflexivity|reflexivity|].
          rewrite Dp, Z.mul_1_r, all_zeros in Hh by lia. exact Hh.
        - destruct (sv_A _ _ _ _ (updA o A_phip (aput (oA o A_phip) 0 (fofZ S 0))) _ Hsv Hwf1 "phip_b"%string A_phip (asize (oA (updA o A_phip (aput (oA o A_phip) 0 (fofZ S 0))) A_phip)) ["radius"]%string (ns + 1)) as (l & (L & t & Et) & Hh); [isin|reflexivity|apply Z.mul_1_r|lia|].
          destruct l as [|c0 l]; [cbn in L; lia|]. cbn in Et. destruct (adata (oA o A_phip)) as [|c1 d] eqn:Ed; [destruct Hc as (c & Hc); discriminate Hc|].
          cbn in Et. injection Et as <- ->. exists c1, l. split; [|exact Hh]. split; [exact L|]. exists t. exact Ed.
        - intros y k Hin. cbn in Hin. repeat (destruct Hin as [Hin|Hin]; [injection Hin as <- <-; match goal with |- exists l, prefix (oA o ?k) _ l /\ holds f ?y _ _ => eapply (sv_A _ _ _ _ (updA o A_phip (aput (oA o A_phip) 0 (fofZ S 0))) _ Hsv Hwf1 y k); [isin|reflexivity|apply Z.mul_1_r|lia] end|]). destruct Hin.
      }
      assert (Nmat : nsize [("radius", ns + 1); ("mn_mode", mn); ("mn_modes", mn); ("comput_surfs", asize (oN o N_compute_surfs)); ("pack_rad", asize (oN o N_compute_surfs)); (dim_str (String.length ("C++/Python booz_xform " ++ version)), Z.of_nat (String.length ("C++/Python booz_xform " ++ version)))]%string ["pack_rad"; "mn_modes"]%string = nb * mn) by (rewrite <- Ecs; cbn; now rewrite Z.mul_1_r).
      assert (Npos : 0 <= nb * mn) by (apply Z.mul_nonneg_nonneg; assumption).
      split.
      { intros y k Hin. cbn in Hin. repeat (destruct Hin as [Hin|Hin]; [injection Hin as <- <-; match goal with |- exists l, prefix (oA o ?k) _ l /\ holds f ?y _ _ => eapply ((sv_A _ _ _ _ (updA o A_phip (aput (oA o A_phip) 0 (fofZ S 0))) _ Hsv Hwf1) y k); [isin|reflexivity|exact Nmat|exact Npos] end|]). destruct Hin. }
      split.
      { edestruct (sv_LA _ _ _ _ _ _ Hsv "pmns_b"%string "pmns_b"%string (asize ps) ["pack_rad"; "mn_modes"]%string (nb * mn) ps) as (Hh & Lh & _); [isin|reflexivity|exact Nmat|reflexivity|].
        destruct (map_prefix (oA o A_numns_b) (nb * mn) (option_map (fneg S))) as (l & Pl & El); [apply Hwf|split; [exact Npos|rewrite <- Aps; exact Lh]|].
        exists l. split; [exact Pl|]. rewrite Dps in Hh.  rewrite El in Hh. exact Hh. }
      split; [|discriminate].
      intros _. split.
      { intros y k Hin. cbn in Hin. repeat (destruct Hin as [Hin|Hin]; [injection Hin as <- <-; match goal with |- exists l, prefix (oA o ?k) _ l /\ holds f ?y _ _ => eapply ((sv_A _ _ _ _ (updA o A_phip (aput (oA o A_phip) 0 (fofZ S 0))) _ Hsv Hwf1) y k); [isin|reflexivity|exact Nmat|exact Npos] end|]). destruct Hin. }
      { edestruct (sv_LA _ _ _ _ _ _ Hsv "pmnc_b"%string "pmnc_b"%string (asize pc) ["pack_rad"; "mn_modes"]%string (nb * mn) pc) as (Hh & Lh & _); [isin|reflexivity|exact Nmat|reflexivity|].
        destruct (map_prefix (oA o A_numnc_b) (nb * mn) (option_map (fneg S))) as (l & Pl & El); [apply Hwf|split; [exact Npos|rewrite <- Apc; exact Lh]|].
        exists l. split; [exact Pl|]. rewrite Dpc in Hh.  rewrite El in Hh. exact Hh. }
    + apply ok_ret. cbv beta iota.
      fin_.
      pose proof (wf_phip o (fofZ S 0) Hwf) as Hwf1.
      destruct (sv_LN _ _ _ _ _ _ Hsv "jlist"%string "jlist"%string (asize jl) ["comput_surfs"]%string (asize (oN o N_compute_surfs) * 1) jl) as (Hjl & Ljl & _); [isin|reflexivity|reflexivity|reflexivity|].
      assert (Wcs : Z.of_nat (List.length (adata (oN o N_compute_surfs))) = asize (oN o N_compute_surfs)) by apply (proj1 (wf_N o Hwf N_compute_surfs)).
      assert (Ecs : asize (oN o N_compute_surfs) = nb).
      { destruct Pj as (P1 & t & P2). rewrite P2, app_length in Wcs. lia. }
      assert (Ej : lj = adata (oN o N_compute_surfs)) by (apply (all_of _ nb); [apply Hwf|exact Ecs|exact Pj]). subst lj.
      assert (Nns : 0 <= ns) by (destruct Pi as (P1 & _); lia).
      exists mn, ns, nb, false. do 7 (split; [assumption|]).
      split; [unfold dim; rewrite Hds; reflexivity|]. split; [unfold dim; rewrite Hds; reflexivity|]. split; [unfold dim; rewrite Hds; reflexivity|].
      split; [unfold dim; rewrite Hds, <- Ecs; reflexivity|]. split; [unfold dim; rewrite Hds, <- Ecs; reflexivity|].
      split; [eapply (sv_LS _ _ _ _ _ _ Hsv); [isin|reflexivity|apply ds_version|reflexivity]|].
      split; [eapply (sv_LI _ _ _ _ _ _ Hsv); [isin|reflexivity|reflexivity]|].
      split; [eapply (sv_LI _ _ _ _ _ _ Hsv); [isin|reflexivity|reflexivity]|].
      split.
      { intros y k Hin. cbn in Hin. repeat (destruct Hin as [Hin|Hin]; [injection Hin as <- <-; apply (sv_I _ _ _ _ (updA o A_phip (aput (oA o A_phip) 0 (fofZ S 0))) _ Hsv); [isin|reflexivity]|]). destruct Hin. }
      split; [apply (sv_F _ _ _ _ (updA o A_phip (aput (oA o A_phip) 0 (fofZ S 0))) _ Hsv); [isin|reflexivity]|].
      split.
      { intros y Hin. cbn in Hin. repeat (destruct Hin as [Hin|Hin]; [subst y; eapply (sv_LF _ _ _ _ _ _ Hsv); [isin|reflexivity|reflexivity]|]). destruct Hin. }
      split; [rewrite Dj, all_first in Hjl by (rewrite map_length; lia); exact Hjl|]. split; [exact Ecs|].
      split.
      { intros y k Hin. cbn in Hin. repeat (destruct Hin as [Hin|Hin]; [injection Hin as <- <-; eapply (sv_N _ _ _ _ (updA o A_phip (aput (oA o A_phip) 0 (fofZ S 0))) _ Hsv Hwf1); [isin|reflexivity|apply Z.mul_1_r|exact N6]|]). destruct Hin. }
      split.
      { intros y k Hin. cbn in Hin. destruct Hin as [Hin|[Hin|[Hin|[]]]]; injection Hin as <- <-.
        - exists li. split; [exact Pi|]. edestruct (sv_LA _ _ _ _ _ _ Hsv "iota_b"%string "iota_b"%string (asize iota) ["radius"]%string ((ns + 1) * 1) iota) as (Hh & _); [isin|reflexivity|reflexivity|reflexivity|].
          rewrite Di, all_first in Hh by (cbn [List.length]; destruct Pi as (P1 & _); lia). exact Hh.
        - exists lu. split; [exact Pu|]. edestruct (sv_LA _ _ _ _ _ _ Hsv "buco_b"%string "buco_b"%string (asize buco) ["radius"]%string ((ns + 1) * 1) buco) as (Hh & _); [isin|reflexivity|reflexivity|reflexivity|].
          rewrite Du, all_first in Hh by (cbn [List.length]; destruct Pu as (P1 & _); lia). exact Hh.
        - exists lv. split; [exact Pv|]. edestruct (sv_LA _ _ _ _ _ _ Hsv "bvco_b"%string "bvco_b"%string (asize bvco) ["radius"]%string ((ns + 1) * 1) bvco) as (Hh & _); [isin|reflexivity|reflexivity|reflexivity|].
          rewrite Dv, all_first in Hh by (cbn [List.length]; destruct Pv as (P1 & _); lia). exact Hh.
      }
      split; [intros N; contradiction|].
      split.
      { intros _. split; [|split].
        - edestruct (sv_LA _ _ _ _ _ _ Hsv "beta_b"%string "pres_b"%string (asize pres) ["radius"]%string ((ns + 1) * 1) pres) as (Hh & _); [isin|reflexivity|reflexivity|reflexivity|].
          rewrite Dp, Z.mul_1_r, all_zeros in Hh by lia. exact Hh.
        - destruct (sv_A _ _ _ _ (updA o A_phip (aput (oA o A_phip) 0 (fofZ S 0))) _ Hsv Hwf1 "phip_b"%string A_phip (asize (oA (updA o A_phip (aput (oA o A_phip) 0 (fofZ S 0))) A_phip)) ["radius"]%string (ns + 1)) as (l & (L & t & Et) & Hh); [isin|reflexivity|apply Z.mul_1_r|lia|].
          destruct l as [|c0 l]; [cbn in L; lia|]. cbn in Et. destruct (adata (oA o A_phip)) as [|c1 d] eqn:Ed; [destruct Hc as (c & Hc); discriminate Hc|].
          cbn in Et. injection Et as <- ->. exists c1, l. split; [|exact Hh]. split; [exact L|]. exists t. exact Ed.
        - intros y k Hin. cbn in Hin. repeat (destruct Hin as [Hin|Hin]; [injection Hin as <- <-; match goal with |- exists l, prefix (oA o ?k) _ l /\ holds f ?y _ _ => eapply (sv_A _ _ _ _ (updA o A_phip (aput (oA o A_phip) 0 (fofZ S 0))) _ Hsv Hwf1 y k); [isin|reflexivity|apply Z.mul_1_r|lia] end|]). destruct Hin.
      }
      assert (Nmat : nsize [("radius", ns + 1); ("mn_mode", mn); ("mn_modes", mn); ("comput_surfs", asize (oN o N_compute_surfs)); ("pack_rad", asize (oN o N_compute_surfs)); (dim_str (String.length ("C++/Python booz_xform " ++ version)), Z.of_nat (String.length ("C++/Python booz_xform " ++ version)))]%string ["pack_rad"; "mn_modes"]%string = nb * mn) by (rewrite <- Ecs; cbn; now rewrite Z.mul_1_r).
      assert (Npos : 0 <= nb * mn) by (apply Z.mul_nonneg_nonneg; assumption).
      split.
      { intros y k Hin. cbn in Hin. repeat (destruct Hin as [Hin|Hin]; [injection Hin as <- <-; match goal with |- exists l, prefix (oA o ?k) _ l /\ holds f ?y _ _ => eapply ((sv_A _ _ _ _ (updA o A_phip (aput (oA o A_phip) 0 (fofZ S 0))) _ Hsv Hwf1) y k); [isin|reflexivity|exact Nmat|exact Npos] end|]). destruct Hin. }
      split.
      { edestruct (sv_LA _ _ _ _ _ _ Hsv "pmns_b"%string "pmns_b"%string (asize ps) ["pack_rad"; "mn_modes"]%string (nb * mn) ps) as (Hh & Lh & _); [isin|reflexivity|exact Nmat|reflexivity|].
        destruct (map_prefix (oA o A_numns_b) (nb * mn) (option_map (fneg S))) as (l & Pl & El); [apply Hwf|split; [exact Npos|rewrite <- Aps; exact Lh]|].
        exists l. split; [exact Pl|]. rewrite Dps in Hh.  rewrite El in Hh. exact Hh. }
      split; [discriminate|].
      intros _ y Hin. apply Hno. cbn in Hin. repeat (destruct Hin as [Hin|Hin]; [subst y; reflexivity|]). destruct Hin.
Qed.
End Thm.

(** Properties C01 - C10, C20, C21: the structure of run(), for every arithmetic. *)
From Coq Require Import ZArith List String Bool.
From Verif Require Import Scalar Prog Model Wp Func SurfProof RunProof Par FuncExt Spec RunThms.
Import ListNotations.
Local Open Scope Z_scope.

(** ** C01 *)
Theorem C01_run_safe : forall (S : Scalar) (o : obj S) (i : Inp S), valid o i ->
  exists o' ev, run_ok o o' ev /\
    (forall f k b, In f sym_outs \/ (asym i = true /\ In f asym_outs) ->
       0 <= k < mnboz i -> 0 <= b < nsurf i -> exists x, elem2 o' f k b = Some (Some x)) /\
    (forall f, In f sym_outs \/ (asym i = true /\ In f asym_outs) ->
       arows (oA o' f) = mnboz i /\ acols (oA o' f) = nsurf i) /\
    (forall f b, In f [A_s_b; A_Boozer_I; A_Boozer_G] -> 0 <= b < nsurf i ->
       exists x, elem o' f b = Some (Some x)).
Proof. exact (@run_safe). Qed.
Example C01_case : forall S, valid (obj_of (ex_inp S true)) (ex_inp S true) /\
  valid (obj_of (ex_inp S false)) (ex_inp S false).
Proof. exact (fun S => conj (ex_valid S true) (ex_valid S false)). Qed.

(** The requirements are needed: inputs that differ from a valid one in one number. *)
Theorem C01_fresh_object_refuted : forall S, exists why, run (bx_run S) (obj_new S) = RUB why.
Proof. exact (@run_fresh). Qed.
Theorem C01_base_case_runs : forall S, ok_inp (tiny (S := S) 2 1 1 1 0 1 0 0) /\
  exists o ev, run (bx_run S) (obj_of (tiny 2 1 1 1 0 1 0 0)) = ROk tt o ev.
Proof. exact (fun S => conj tiny_ok (tiny_runs S)). Qed.
Theorem C01_mpol_1_refuted : forall S, exists why, run (bx_run S) (obj_of (tiny 1 1 1 1 0 1 0 0)) = RUB why.
Proof. exact bad_mpol. Qed.
Theorem C01_mpol_nyq_0_refuted : forall S, exists why, run (bx_run S) (obj_of (tiny 2 0 1 1 0 1 0 0)) = RUB why.
Proof. exact bad_mpolq. Qed.
Theorem C01_mboz_0_refuted : forall S, exists why, run (bx_run S) (obj_of (tiny 2 1 0 1 0 1 0 0)) = RUB why.
Proof. exact bad_mboz. Qed.
Theorem C01_nfp_0_refuted : forall S, exists why, run (bx_run S) (obj_of (tiny 2 1 1 0 0 1 0 0)) = RUB why.
Proof. exact bad_nfp. Qed.
Theorem C01_xm_eq_mpol_refuted : forall S, exists why, run (bx_run S) (obj_of (tiny 2 1 1 1 0 1 0 2)) = RUB why.
Proof. exact bad_xm. Qed.

(** ** C02 *)
Theorem C02_mode_table : forall (S : Scalar) (o : obj S) (i : Inp S), valid o i ->
  exists o' ev, run_ok o o' ev /\
  let n := (2 * nboz i + 1) * (mboz i - 1) + nboz i + 1 in
  oI o' I_mnboz = Some n /\
  exists ms ns : Z -> Z,
    vec_is (oN o' N_xm_b) n ms /\ vec_is (oN o' N_xn_b) n ns /\
    ms 0 = 0 /\ ns 0 = 0 /\
    (forall j k, 0 <= j < n -> 0 <= k < n -> ms j = ms k -> ns j = ns k -> j = k) /\
    (forall k, 0 <= k < n -> exists q, ns k = q * nfp i) /\
    (forall m q, (exists k, 0 <= k < n /\ ms k = m /\ ns k = q * nfp i) <->
       0 <= m <= mboz i - 1 /\ - nboz i <= q <= nboz i /\ (m = 0 -> 0 <= q)).
Proof. exact (@mode_table). Qed.
Example C02_case : forall S, valid (obj_of (ex_inp S false)) (ex_inp S false).
Proof. exact (fun S => ex_valid S false). Qed.

(** ** C03: no mode has m = mboz, for any input *)
Theorem C03_mboz_is_max_refuted : forall (S : Scalar),
  exists (o : obj S) i, valid o i /\
  exists o' ev, run_ok o o' ev /\ forall k, elemN o' N_xm_b k <> Some (Some (mboz i)).
Proof.
  exact (fun S => ex_intro _ _ (ex_intro _ _ (conj (ex_valid S false)
           (no_mboz_mode _ _ (ex_valid S false))))).
Qed.
Theorem C03_mboz_never_present : forall (S : Scalar) (o : obj S) (i : Inp S), valid o i ->
  exists o' ev, run_ok o o' ev /\ forall k, elemN o' N_xm_b k <> Some (Some (mboz i)).
Proof. exact (@no_mboz_mode). Qed.

(** ** C04 *)
Theorem C04_inputs_unchanged : forall (S : Scalar) (o : obj S) (i : Inp S), valid o i ->
  exists o' ev, run_ok o o' ev /\
    (forall f, In f input_ints -> oI o' f = oI o f) /\
    (forall f, oB o' f = oB o f) /\
    (forall f, In f [F_aspect; F_toroidal_flux] -> oF o' f = oF o f) /\
    (forall f, In f input_intvecs -> oN o' f = oN o f) /\
    (forall f, In f (input_arrays_sym ++ input_arrays_asym ++ flux_arrays) -> oA o' f = oA o f).
Proof. exact (@inputs_kept). Qed.
Example C04_case : forall S, valid (obj_of (ex_inp S true)) (ex_inp S true).
Proof. exact (fun S => ex_valid S true). Qed.

(** ** C05 *)
Theorem C05_idempotent : forall (S : Scalar) (o : obj S) (i : Inp S), valid o i ->
  exists o1 e1, run_ok o o1 e1 /\
  forall n, (1 <= n)%nat -> exists on en, run (run_times n) o = ROk tt on en /\ obj_eq o1 on.
Proof. exact (@run_idempotent). Qed.
Example C05_case : forall S, valid (obj_of (ex_inp S true)) (ex_inp S true).
Proof. exact (fun S => ex_valid S true). Qed.

(** ** C06 *)
Theorem C06_history_independent : forall (S : Scalar) (o o' : obj S) (i : Inp S),
  valid o i -> wf_obj o' -> same_inputs o o' ->
  exists r r' ev, run_ok o r ev /\ run_ok o' r' ev /\ same_outputs (asym i) r r'.
Proof. exact (@history_independent). Qed.
Example C06_case : forall S, exists o o' : obj S, exists i,
  valid o i /\ wf_obj o' /\ same_inputs o o' /\ oA o A_bmnc_b <> oA o' A_bmnc_b.
Proof. exact (@ex_histories). Qed.

(** ** C07 *)
Theorem C07_asym_outputs_partial : forall (S : Scalar) (o : obj S) (i : Inp S),
  (* missing: the conclusion needs outputs that are empty before the call *)
  valid o i -> asym i = false ->
  exists o' ev, run_ok o o' ev /\ forall f, In f output_arrays_asym -> oA o' f = oA o f.
Proof. exact (@asym_outputs_untouched). Qed.
Example C07_case : forall S, valid (obj_of (ex_inp S false)) (ex_inp S false) /\
  forall f, In f output_arrays_asym -> asize (oA (obj_of (ex_inp S false)) f) = 0.
Proof. exact (@ex_empty_asym). Qed.
Theorem C07_asym_outputs_refuted : forall S, exists (o o1 o2 : obj S) e1 e2,
  run_ok o o1 e1 /\ run_ok (updB o1 B_asym (Some false)) o2 e2 /\
  oB o2 B_asym = Some false /\ 1 <= asize (oA o2 A_bmns_b).
Proof. exact (@ex_stale_asym). Qed.

(** ** C08 *)
Theorem C08_surface_independent : forall (S : Scalar) (o o' : obj S) (i i' : Inp S) (b b' : Z),
  valid o i -> valid o' i' -> same_setup i i' ->
  0 <= b < nsurf i -> 0 <= b' < nsurf i' ->
  same_surface i (surf i b) i' (surf i' b') ->
  exists r e r' e', run_ok o r e /\ run_ok o' r' e' /\
    (forall f k, In f sym_outs \/ (asym i = true /\ In f asym_outs) -> 0 <= k < mnboz i ->
       elem2 r f k b = elem2 r' f k b' /\ elem2 r f k b <> None) /\
    elem r A_Boozer_I b = elem r' A_Boozer_I b' /\ elem r A_Boozer_G b = elem r' A_Boozer_G b' /\
    (sin_ i (surf i b) = sin_ i' (surf i' b') -> elem r A_s_b b = elem r' A_s_b b').
Proof. exact (@surface_independent). Qed.
Example C08_case : forall S,
  valid (obj_of (ex_inp S true)) (ex_inp S true) /\ valid (obj_of (ex_sel S)) (ex_sel S) /\
  same_setup (ex_inp S true) (ex_sel S) /\
  same_surface (ex_inp S true) (surf (ex_inp S true) 0) (ex_sel S) (surf (ex_sel S) 2).
Proof. exact (fun S => conj (ex_valid S true) (conj (ex_sel_valid S) (ex_sel_same S))). Qed.

(** ** C09 *)
Theorem C09_parallel : forall (S : Scalar) (i : Inp S), ok_inp i ->
  forall (o : obj S) (A : list (list Z)), repr o i -> wf_obj o -> is_schedule (nsurf i) A ->
  exists o1, run (run_head S) o = ROk tt o1 (head_events S i) /\
  forall c, csteps (mkCfg (map (seqs S) A) o1 []) c ->
    ~ failing c /\ ~ racy c /\ (finished c \/ exists c', cstep c c') /\
    (finished c ->
       (exists os, run (bx_run S) o = ROk tt os (run_events S i) /\ obj_eq (cO c) os) /\
       forall t, (t < List.length A)%nat ->
         proj t (cLog c) = List.concat (map (surf_events S i) (nth t A []))).
Proof. exact (@par_run). Qed.
Theorem C09_terminates : forall S, well_founded (fun c' c : config (S := S) => cstep c c').
Proof. exact (@cstep_wf). Qed.
Example C09_case : forall S, valid (obj_of (ex_inp S true)) (ex_inp S true) /\
  is_schedule (nsurf (ex_inp S true)) [[1]; [0]].
Proof. exact (fun S => conj (ex_valid S true) ex_schedule). Qed.
(** Lines printed at verbose > 1 by different threads can be mixed up. *)
Theorem C09_banner_lines_refuted : forall S, exists (o : obj S) i A o1 ev c,
  valid o i /\ is_schedule (nsurf i) A /\
  run (run_head S) o = ROk tt o1 ev /\ csteps (mkCfg (map (seqs S) A) o1 []) c /\
  cLog c = [(0%nat, mkEv "Solving for js_b=" [1] []); (1%nat, mkEv "Solving for js_b=" [0] [])].
Proof. exact (@ex_banner). Qed.

(** ** C10 *)
Theorem C10_verbose : forall (S : Scalar) (o : obj S) (i : Inp S) (v : Z), valid o i ->
  exists r e r' e', run_ok o r e /\ run_ok (updI o I_verbose (Some v)) r' e' /\
    obj_eq r' (updI r I_verbose (Some v)) /\ (v <= 0 -> e' = []).
Proof. exact (@verbose_prints_only). Qed.
Example C10_case : forall S, valid (obj_of (ex_inp S true)) (ex_inp S true).
Proof. exact (fun S => ex_valid S true). Qed.

(** ** C20 *)
Theorem C20_G_and_I : forall (S : Scalar) (o : obj S) (i : Inp S), valid o i ->
  xmq i 0 = 0 -> xnq i 0 = 0 ->
  (forall k, 0 < k < mnmaxq i -> xmq i k <> 0 \/ xnq i k <> 0) ->
  exists r ev, run_ok o r ev /\
    forall b, 0 <= b < nsurf i -> exists js, elemN o N_compute_surfs b = Some (Some js) /\
      elem r A_Boozer_I b = elem2 o A_bsubumnc 0 js /\ elem r A_Boozer_I b = elem r A_Boozer_I_all js /\
      elem r A_Boozer_G b = elem2 o A_bsubvmnc 0 js /\ elem r A_Boozer_G b = elem r A_Boozer_G_all js /\
      elem r A_Boozer_I b <> None /\ elem r A_Boozer_G b <> None.
Proof. exact (@GI_first). Qed.
Example C20_case : forall S, valid (obj_of (ex_inp S true)) (ex_inp S true) /\
  xmq (ex_inp S true) 0 = 0 /\ xnq (ex_inp S true) 0 = 0 /\
  forall k, 0 < k < mnmaxq (ex_inp S true) -> xmq (ex_inp S true) k <> 0 \/ xnq (ex_inp S true) k <> 0.
Proof. exact (@ex_GI). Qed.
Theorem C20_last_entry_wins : forall (S : Scalar) (o : obj S) (i : Inp S) (k0 : Z),
  valid o i -> 0 <= k0 < mnmaxq i -> xmq i k0 = 0 -> xnq i k0 = 0 ->
  (forall k, k0 < k < mnmaxq i -> xmq i k <> 0 \/ xnq i k <> 0) ->
  exists r ev, run_ok o r ev /\
    (forall b, 0 <= b < nsurf i ->
       elem r A_Boozer_I b = Some (Some (bsubumnc i k0 (surf i b))) /\
       elem r A_Boozer_G b = Some (Some (bsubvmnc i k0 (surf i b)))) /\
    (forall j, 0 <= j < nsin i ->
       elem r A_Boozer_I_all j = Some (Some (bsubumnc i 0 j)) /\
       elem r A_Boozer_G_all j = Some (Some (bsubvmnc i 0 j))).
Proof. exact (@GI_last). Qed.
Theorem C20_sources_differ : exists (o : obj RS) i r ev js,
  valid o i /\ run_ok o r ev /\ elemN o N_compute_surfs 0 = Some (Some js) /\
  elem r A_Boozer_G 0 <> elem r A_Boozer_G_all js.
Proof. exact GI_sources_differ. Qed.
Theorem C20_no_00_mode : forall (S : Scalar) (o : obj S) (i : Inp S), valid o i ->
  (forall k, 0 <= k < mnmaxq i -> xmq i k <> 0 \/ xnq i k <> 0) ->
  exists r ev, run_ok o r ev /\
    (forall b, 0 <= b < nsurf i ->
       elem r A_Boozer_I b = Some (Some (f0 S)) /\ elem r A_Boozer_G b = Some (Some (f0 S))).
Proof. exact (@GI_missing). Qed.

(** ** C21 *)
Theorem C21_s_b : forall (S : Scalar) (o : obj S) (i : Inp S), valid o i ->
  exists r ev, run_ok o r ev /\ oI r I_ns_b = Some (nsurf i) /\ asize (oA r A_s_b) = nsurf i /\
    forall b, 0 <= b < nsurf i -> exists js, elemN o N_compute_surfs b = Some (Some js) /\
      elem r A_s_b b = elem o A_s_in js /\ elem r A_s_b b <> None.
Proof. exact (@s_b_selected). Qed.
Example C21_case : forall S, valid (obj_of (ex_inp S true)) (ex_inp S true).
Proof. exact (fun S => ex_valid S true). Qed.

(** ** C48: a surface number out of range is not rejected *)
Theorem C48_compute_surfs_refuted : forall S,
  (exists why, run (bx_run S) (obj_of (tiny 2 1 1 1 0 1 1 0)) = RUB why) /\
  (exists why, run (bx_run S) (obj_of (tiny 2 1 1 1 0 1 (-1) 0)) = RUB why).
Proof. exact (fun S => conj (bad_surf S) (bad_surf_neg S)). Qed.

Print Assumptions C01_run_safe.
Print Assumptions C01_fresh_object_refuted.
Print Assumptions C02_mode_table.
Print Assumptions C03_mboz_is_max_refuted.
Print Assumptions C04_inputs_unchanged.
Print Assumptions C05_idempotent.
Print Assumptions C06_history_independent.
Print Assumptions C07_asym_outputs_partial.
Print Assumptions C07_asym_outputs_refuted.
Print Assumptions C08_surface_independent.
Print Assumptions C09_parallel.
Print Assumptions C09_terminates.
Print Assumptions C09_banner_lines_refuted.
Print Assumptions C10_verbose.
Print Assumptions C20_G_and_I.
Print Assumptions C20_sources_differ.
Print Assumptions C21_s_b.
Print Assumptions C48_compute_surfs_refuted.
Print Assumptions C01_base_case_runs.
Print Assumptions C01_mpol_1_refuted.
Print Assumptions C01_mpol_nyq_0_refuted.
Print Assumptions C01_mboz_0_refuted.
Print Assumptions C01_nfp_0_refuted.
Print Assumptions C01_xm_eq_mpol_refuted.
Print Assumptions C03_mboz_never_present.
Print Assumptions C20_last_entry_wins.
Print Assumptions C20_no_00_mode.

(** C62: arrays obtained from attributes in Python. *)
From Coq Require Import ZArith List String Bool Reals.
From Verif Require Import Scalar Prog Model Wp Func FuncExt Spec RunThms Nc Py PyView PyViewThms PyMem PyMemThms FrameThms.
Import ListNotations.
Local Open Scope Z_scope.

(** ** C62 *)
Theorem C62_lifetime : forall (S : Scalar) l os (o : obj S) b o' b' f k j,
  calls l os o b o' b' -> fits b -> wf_obj o' -> 0 <= k < arows (oA o f) -> 0 <= j < acols (oA o f) ->
  (Forall (fun q => asize (oA q f) = asize (oA o f)) os -> arows (oA o' f) = arows (oA o f) -> acols (oA o' f) = acols (oA o f) ->
     exists x, elem2 o' f k j = Some x /\ look (get_view o b (inl f)) o' b' f k j = Value x) /\
  (Exists (fun q => asize (oA q f) <> asize (oA o f)) os -> look (get_view o b (inl f)) o' b' f k j = Freed).
Proof. exact (@lifetime). Qed.
(** All calls, also those that read or write files, and those that throw an exception the program catches *)
Theorem C62_lifetime_all : forall (S : Scalar) version l os (w : world S) b w' b' f k j,
  session version l os w b w' b' -> fits b -> wf_obj (wO w') -> 0 <= k < arows (oA (wO w) f) -> 0 <= j < acols (oA (wO w) f) ->
  (Forall (fun q => asize (oA q f) = asize (oA (wO w) f)) os ->
     arows (oA (wO w') f) = arows (oA (wO w) f) -> acols (oA (wO w') f) = acols (oA (wO w) f) ->
     exists x, elem2 (wO w') f k j = Some x /\ look (get_view (wO w) b (inl f)) (wO w') b' f k j = Value x) /\
  (Exists (fun q => asize (oA q f) <> asize (oA (wO w) f)) os -> look (get_view (wO w) b (inl f)) (wO w') b' f k j = Freed).
Proof. exact lifetime_all. Qed.
(** Arrays of ints: xm, xn, xm_nyq, xn_nyq, xm_b, xn_b, compute_surfs *)
Theorem C62_lifetime_ints : forall (S : Scalar) version l os (w : world S) b w' b' f k,
  session version l os w b w' b' -> fits b -> wf_obj (wO w) -> wf_obj (wO w') -> 0 <= k < arows (oN (wO w) f) ->
  (Forall (fun q => asize (oN q f) = asize (oN (wO w) f)) os ->
     exists x, elemN (wO w') f k = Some x /\ look_n (get_view (wO w) b (inr f)) (wO w') b' f k = Value x) /\
  (Exists (fun q => asize (oN q f) <> asize (oN (wO w) f)) os -> look_n (get_view (wO w) b (inr f)) (wO w') b' f k = Freed).
Proof. exact lifetime_ints. Qed.
(** An array obtained after read_boozmn; the same file once more, a file that does not exist,
    write_boozmn; and instead another equilibrium and run() *)
Example C62_all_case : forall (S : Scalar), exists w1 os2 w2 b2 os3 w3 b3 x,
  exec "0.0.8" (ReadBoozmn "b.nc") (bx S) = IOk tt w1 /\ fits b0 /\ wf_obj (wO w1) /\
  session "0.0.8" [ReadBoozmn "b.nc"; ReadWout "none.nc" true; Write "out.nc"] os2 w1 b0 w2 b2 /\ wf_obj (wO w2) /\
  look (get_view (wO w1) b0 (inl A_bmnc_b)) (wO w2) b2 A_bmnc_b 0 0 = Value (Some x) /\
  session "0.0.8" [ReadWout "wout.nc" false; PutInt I_mboz 2; PutInt I_nboz 1; PutInts N_compute_surfs 1 (fun _ => 0); PutInt I_verbose 0; Run] os3 w1 b0 w3 b3 /\
  wf_obj (wO w3) /\ look (get_view (wO w1) b0 (inl A_bmnc_b)) (wO w3) b3 A_bmnc_b 0 0 = Freed.
Proof. exact all_case. Qed.
Theorem C62_inputs : forall (S : Scalar) (o : obj S) i o' ev b f v k j, valid o i -> run_ok o o' ev ->
  In f (input_arrays_sym ++ input_arrays_asym ++ flux_arrays) -> fits b ->
  look v o' (track (bx_run S) o b) f k j = look v o b f k j.
Proof. exact (@inputs_stay). Qed.
Theorem C62_results : forall (S : Scalar) (o : obj S) i o1 e1 b l os o2 b2 i2 o3 e3 f k j,
  valid o i -> run_ok o o1 e1 -> fits b ->
  calls l os o1 b o2 b2 -> ~ In Run l -> valid o2 i2 -> run_ok o2 o3 e3 ->
  In f sym_outs \/ asym i = true /\ asym i2 = true /\ In f asym_outs -> 0 <= k < mnboz i -> 0 <= j < nsurf i ->
  (mnboz i2 = mnboz i -> nsurf i2 = nsurf i ->
     exists x, elem2 o3 f k j = Some (Some x) /\ look (get_view o1 b (inl f)) o3 (track (bx_run S) o2 b2) f k j = Value (Some x)) /\
  (mnboz i2 * nsurf i2 <> mnboz i * nsurf i -> look (get_view o1 b (inl f)) o3 (track (bx_run S) o2 b2) f k j = Freed).
Proof. exact (@results_replaced). Qed.
(** run(), then compute_surfs = any one to three surfaces, then run() *)
Example C62_case : forall (S : Scalar) (asy : bool) n g, (n <= 3)%nat -> (forall k, 0 <= k < Z.of_nat n -> 0 <= g k < 3) ->
  exists o1 e1 o2 o3 e3 b2 b3, fits b0 /\ valid (obj_of (ex_inp S asy)) (ex_inp S asy) /\ run_ok (obj_of (ex_inp S asy)) o1 e1 /\
    calls [PutInts N_compute_surfs n g] [o2] o1 b0 o2 b2 /\
    valid o2 (with_surfs (ex_inp S asy) (Z.of_nat n) g) /\ run_ok o2 o3 e3 /\ wf_obj o3 /\
    calls [PutInts N_compute_surfs n g; Run] [o2; o3] o1 b0 o3 b3.
Proof. exact (@session_case). Qed.
Theorem C62_usable_refuted : forall (S : Scalar) asy, exists o1 o3 (b1 b3 : store) os,
  (exists o i e1, valid o i /\ run_ok o o1 e1 /\ i = ex_inp S asy) /\ fits b1 /\
  calls [PutInts N_compute_surfs 1 (fun _ => 0); Run] os o1 b1 o3 b3 /\
  (exists x, look (get_view o1 b1 (inl A_bmnc_b)) o1 b1 A_bmnc_b 0 0 = Value (Some x)) /\
  look (get_view o1 b1 (inl A_bmnc_b)) o3 b3 A_bmnc_b 0 0 = Freed.
Proof. exact dangling_refuted. Qed.
Theorem C62_kept_refuted : exists (o1 o3 : obj RS) (b1 b3 : store) os x y,
  (exists o i e1, valid o i /\ run_ok o o1 e1) /\ fits b1 /\
  calls [PutInts N_compute_surfs 2 (fun k => k); Run] os o1 b1 o3 b3 /\
  look (get_view o1 b1 (inl A_s_b)) o1 b1 A_s_b 0 0 = Value (Some x) /\
  look (get_view o1 b1 (inl A_s_b)) o3 b3 A_s_b 0 0 = Value (Some y) /\ x <> y.
Proof. exact changed_refuted. Qed.

Print Assumptions C62_lifetime.
Print Assumptions C62_lifetime_all.
Print Assumptions C62_lifetime_ints.
Print Assumptions C62_inputs.
Print Assumptions C62_results.
Print Assumptions C62_usable_refuted.
Print Assumptions C62_kept_refuted.

(** C80: the statements, and a case. *)
From Coq Require Import ZArith List String Bool Lia.
From Verif Require Import Scalar Prog Model Wp Func FuncExt Spec Vmec Nc NcModel NcSpec NcVoc NcThms NcThms4 Py Frame ReadAll Stored Short Sound SoundThms.
Import ListNotations.
Local Open Scope Z_scope.

Section Ex.
Context {S : Scalar}.
Notation world := (world S).
Lemma from_new version l (w w' : world) : wO w = obj_new S -> performs version l w w' -> tidy (wO w').
Proof. intros E H. eapply always_tidy; [exact H|]. rewrite E. apply tidy_new. Qed.
Theorem shapes version l (w w' : world) : wO w = obj_new S -> performs version l w w' ->
  (forall k, let a := oN (wO w') k in 0 <= arows a /\ acols a = 1 /\ Z.of_nat (List.length (adata a)) = arows a) /\
  (forall k, let a := oA (wO w') k in 0 <= arows a /\ 0 <= acols a /\ Z.of_nat (List.length (adata a)) = arows a * acols a /\
     (is_vector k = true -> acols a = 1)).
Proof.
  intros E H. destruct (from_new version l w w' E H) as [N A]. split; intros k a.
  - destruct (N k) as ((W1 & W2 & W3) & W4). subst a. rewrite W4 in W3. lia.
  - destruct (A k) as ((W1 & W2 & W3) & W4). auto.
Qed.
Theorem any_end version (c : call S) (w w' : world) : tidy (wO w) -> leaves version c w w' -> tidy (wO w').
Proof. intros T L. now apply (left_tidy version c w). Qed.
Theorem sound_object version l (w w' : world) : wO w = obj_new S -> performs version l w w' -> wf_obj (wO w').
Proof. intros E H. apply tidy_wf. eapply from_new; eauto. Qed.
End Ex.

Section Case.
Variable S : Scalar.
(** Results with two surfaces are read; then the same file as an equilibrium, which fails half way; then s_in is assigned. *)
Definition case_calls : list (call S) := [ReadBoozmn "b.nc"; ReadWout "b.nc" false; PutArr A_s_in 3 1 (fun j _ => fofZ S j)].
Definition case_world : world S := desk S (obj_new S) (shelf S (bfile_of S (two_surf S 1))) [].
Theorem sound_case : exists l (w w' : world S), wO w = obj_new S /\ performs "0.0.8" l w w' /\
  (exists c w1 m w2, exec "0.0.8" c w1 = IThrow m w2 /\ In c l) /\ arows (oA (wO w') A_bmnc_b) = 1 /\ acols (oA (wO w') A_bmnc_b) = 2 /\
  arows (oA (wO w') A_s_in) = 3.
Proof.
  assert (H : match exec "0.0.8" (ReadBoozmn "b.nc") case_world with IOk _ w1 =>
    match exec "0.0.8" (ReadWout "b.nc" false) w1 with IThrow _ w2 =>
    match exec "0.0.8" (PutArr A_s_in 3 1 (fun j _ => fofZ S j)) w2 with IOk _ w3 => arows (oA (wO w3) A_bmnc_b) = 1 /\ acols (oA (wO w3) A_bmnc_b) = 2 /\
    arows (oA (wO w3) A_s_in) = 3 | _ => False end | _ => False end | _ => False end) by (vm_compute; auto).
  destruct (exec "0.0.8" (ReadBoozmn "b.nc") case_world) as [[] w1| | |] eqn:E1; try contradiction.
  destruct (exec "0.0.8" (ReadWout "b.nc" false) w1) as [|m w2| |] eqn:E2; try contradiction.
  destruct (exec "0.0.8" (PutArr A_s_in 3 1 (fun j _ => fofZ S j)) w2) as [[] w3| | |] eqn:E3; try contradiction.
  exists case_calls, case_world, w3. split; [reflexivity|]. split; [|split; [|exact H]].
  - eapply pf_ok; [exact E1|]. eapply pf_exn; [exact E2|]. eapply pf_ok; [exact E3|]. apply pf_nil.
  - exists (ReadWout "b.nc" false), w1, m, w2. split; [exact E2|]. right. now left.
Qed.
Theorem untidy : exists o : obj S, ~ tidy o.
Proof.
  exists (updA (obj_new S) A_iota (mkArr 1 1 [])). intros [_ A]. destruct (A A_iota) as ((_ & _ & W) & _). cbn in W. discriminate W.
Qed.
End Case.

(** C72: what a call changes, and what it does not. *)
From Coq Require Import ZArith List String Bool.
From Verif Require Import Scalar Prog Model Spec Nc NcModel NcSpec NcVoc NcThms NcThms4 Py PyThms Frame FrameThms.
Import ListNotations.
Local Open Scope Z_scope.

Theorem C72_changes_only : forall (S : Scalar) version (c : call S) (w w' : world S), c <> New -> leaves version c w w' ->
  forall x, ~ In x (changes c) -> kept_in (wO w) (wO w') x.
Proof. exact (@changes_only). Qed.
Theorem C72_results_kept : forall (S : Scalar) version l (w w' : world S), performs version l w w' ->
  forallb (fun c => negb (brings_results c)) l = true ->
  forall x, In x result_members -> kept_in (wO w) (wO w') x.
Proof. exact (@results_kept). Qed.
Example C72_kept_case : forall S : Scalar, exists w1 w2, performs "0.0.8" (first_calls S) (bx S) w1 /\
  performs "0.0.8" (further_calls S) w1 w2 /\ forallb (fun c => negb (brings_results c)) (further_calls S) = true /\
  oI (wO w1) I_mnboz = Some 5 /\ arows (oA (wO w1) A_bmnc_b) = 5 /\ oI (wO w2) I_mboz <> oI (wO w1) I_mboz.
Proof. exact kept_case. Qed.
Theorem C72_read_only : forall (S : Scalar) version (c : call S) x (w : world S), target c = Some x -> ~ In x input_members ->
  exec version c w = IThrow "AttributeError: can't set attribute" w.
Proof. exact (@read_only). Qed.
Example C72_read_only_case : forall x, In x (result_members ++ private_members) -> ~ In x input_members.
Proof. exact outputs_not_inputs. Qed.
Theorem C72_assigned : forall (S : Scalar) version (c : call S) x (w : world S), target c = Some x -> In x input_members -> convertible c ->
  exists w', exec version c w = IOk tt w' /\ stored c (wO w') /\ (forall y, y <> x -> kept_in (wO w) (wO w') y) /\
    wFS w' = wFS w /\ wOpen w' = wOpen w /\ wEv w' = wEv w.
Proof. exact (@assigned). Qed.
Theorem C72_wrong_type : forall (S : Scalar) version (c : call S) x (w : world S), target c = Some x -> In x input_members -> ~ convertible c ->
  exec version c w = IThrow "TypeError: incompatible function arguments" w.
Proof. exact (@wrong_type). Qed.
Example C72_assigned_case : forall S : Scalar,
  (convertible (@PutInt S I_mboz 17) /\ In (MI I_mboz) input_members) /\
  (convertible (@PutArr S A_iota 3 1 (fun j _ => fofZ S j)) /\ In (MA A_iota) input_members) /\
  (convertible (@PutArr S A_rmnc 3 2 (fun j k => fofZ S (j + k))) /\ In (MA A_rmnc) input_members) /\
  ~ convertible (@PutInt S I_mboz 2147483648) /\ ~ convertible (@PutArr S A_iota 3 2 (fun j _ => fofZ S j)).
Proof. exact assigned_case. Qed.
(** After read_boozmn(), Boozer_G and Boozer_I are not those of the file. *)
Theorem C72_profiles_refuted : forall S : Scalar, exists version (w w1 : world S) n, wO w = obj_new S /\ open_ok w /\ lucky S w /\
  bfile S (bfile_of S (bex S)) (bex S) /\ bsane S (bex S) /\ bcomplete S (bfile_of S (bex S)) (bex S) /\
  wFS w "b.nc" = Some (Whole (bfile_of S (bex S))) /\ exec version (ReadBoozmn "b.nc") w = IOk tt w1 /\
  oI (wO w1) I_ns_b = Some n /\ 0 < n /\ elem (wO w1) A_Boozer_G 0 = None /\ elem (wO w1) A_Boozer_I 0 = None.
Proof. exact profiles_refuted. Qed.

Print Assumptions C72_changes_only.
Print Assumptions C72_results_kept.
Print Assumptions C72_read_only.
Print Assumptions C72_assigned.
Print Assumptions C72_wrong_type.
Print Assumptions C72_profiles_refuted.

(** C73: a reading that succeeds has read everything. *)
From Coq Require Import ZArith List String Bool.
From Verif Require Import Scalar Prog Model Nc NcModel NcVoc NcThms4 ReadAll.
Import ListNotations.
Local Open Scope Z_scope.

Theorem C73_read_wout : forall (S : Scalar) x fl (w w' : world S), read_wout S x fl w = IOk tt w' ->
  exists f z, wFS w x = Some (Whole f) /\ wFS w' = wFS w /\ (open_ok w -> wOpen w' = wOpen w) /\ at_most 0 w w' /\
    (forall y, In y wout_ints -> has_ints f y) /\ (forall y, In y wout_floats -> has_numbers f y) /\
    (fl = true -> forall y, In y wout_fluxes -> has_numbers f y) /\
    first_int f "lasym__logical__" z /\ oB (wO w') B_asym = Some (negb (z =? 0)) /\
    (z <> 0 -> forall y, In y wout_asym -> has_numbers f y).
Proof. exact (@wout_complete). Qed.
Theorem C73_read_boozmn : forall (S : Scalar) x (w w' : world S), read_boozmn S x w = IOk tt w' ->
  exists f z, wFS w x = Some (Whole f) /\ wFS w' = wFS w /\ (open_ok w -> wOpen w' = wOpen w) /\ at_most 1 w w' /\
    (forall y, In y booz_ints -> has_ints f y) /\ (forall y, In y booz_floats -> has_numbers f y) /\
    first_int f "lasym__logical__" z /\ oB (wO w') B_asym = Some (negb (z =? 0)) /\
    (z <> 0 -> forall y, In y booz_asym -> has_numbers f y).
Proof. exact (@boozmn_complete). Qed.
Example C73_case : forall S : Scalar,
  (exists w', read_wout S "f.nc" true (one_file S (wex S false true) (repeat Fine 5)) = IOk tt w') /\
  (exists w', read_boozmn S "f.nc" (one_file S (bfile_of S (bex S)) []) = IOk tt w') /\
  (exists m w', read_wout S "f.nc" true (one_file S (wex S false true) (repeat Fine 17 ++ [Fail "Input/output error"])) = IThrow m w') /\
  (exists m w', read_boozmn S "f.nc" (one_file S (as_text S "bmnc_b" (bfile_of S (bex S))) []) = IThrow m w').
Proof. exact complete_case. Qed.

Print Assumptions C73_read_wout.
Print Assumptions C73_read_boozmn.

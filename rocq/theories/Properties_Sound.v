(** C80: the shapes of the array members. *)
From Coq Require Import ZArith List String Bool.
From Verif Require Import Scalar Prog Model Wp Spec Nc NcModel NcSpec NcVoc NcThms NcThms4 Py PyThms Frame FrameThms Sound SoundThms SoundEx.
Import ListNotations.
Local Open Scope Z_scope.

Theorem C80_shapes : forall (S : Scalar) version l (w w' : world S), wO w = obj_new S -> performs version l w w' ->
  (forall k, let a := oN (wO w') k in 0 <= arows a /\ acols a = 1 /\ Z.of_nat (List.length (adata a)) = arows a) /\
  (forall k, let a := oA (wO w') k in 0 <= arows a /\ 0 <= acols a /\ Z.of_nat (List.length (adata a)) = arows a * acols a /\
     (is_vector k = true -> acols a = 1)).
Proof. exact (@shapes). Qed.
Theorem C80_any_end : forall (S : Scalar) version (c : call S) (w w' : world S), tidy (wO w) -> leaves version c w w' -> tidy (wO w').
Proof. exact (@any_end). Qed.
Theorem C80_sound_object : forall (S : Scalar) version l (w w' : world S), wO w = obj_new S -> performs version l w w' -> wf_obj (wO w').
Proof. exact (@sound_object). Qed.
(** A history in which a call fails half way, with a matrix that has been read and a vector that has been assigned; and an
    object that is not tidy. *)
Example C80_case : forall S : Scalar, exists l (w w' : world S), wO w = obj_new S /\ performs "0.0.8" l w w' /\
  (exists c w1 m w2, exec "0.0.8" c w1 = IThrow m w2 /\ In c l) /\ arows (oA (wO w') A_bmnc_b) = 1 /\ acols (oA (wO w') A_bmnc_b) = 2 /\
  arows (oA (wO w') A_s_in) = 3.
Proof. exact sound_case. Qed.
Example C80_untidy : forall S : Scalar, exists o : obj S, ~ tidy o.
Proof. exact untidy. Qed.

Print Assumptions C80_shapes.
Print Assumptions C80_any_end.
Print Assumptions C80_sound_object.

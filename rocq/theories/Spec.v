(** The vocabulary of the theorems about run(): which members are inputs and outputs
    (booz_xform.hpp:64-410), what a valid object is, equality of objects. *)
From Coq Require Import ZArith List String Bool.
From Verif Require Import Scalar Prog Model Wp Func.
Import ListNotations.
Local Open Scope Z_scope.

(** [o] holds the inputs [i], which satisfy the documented requirements. *)
Definition valid {S} (o : obj S) (i : Inp S) : Prop := ok_inp i /\ repr o i /\ wf_obj o.

(** A call of run() by one thread. *)
Definition run_ok {S} (o o' : obj S) (ev : list (event S)) : Prop := run (bx_run S) o = ROk tt o' ev.

Definition input_ints : list ifield :=
  [I_verbose; I_nfp; I_mpol; I_ntor; I_mnmax; I_mpol_nyq; I_ntor_nyq; I_mnmax_nyq; I_ns_in; I_mboz; I_nboz].
Definition input_intvecs : list nfield := [N_xm; N_xn; N_xm_nyq; N_xn_nyq; N_compute_surfs].
Definition input_arrays_sym : list afield :=
  [A_s_in; A_iota; A_rmnc; A_zmns; A_lmns; A_bmnc; A_bsubumnc; A_bsubvmnc].
Definition input_arrays_asym : list afield :=
  [A_rmns; A_zmnc; A_lmnc; A_bmns; A_bsubumns; A_bsubvmns].
Definition flux_arrays : list afield := [A_phi; A_phip; A_chi; A_pres].

(** Same inputs, as far as run() is concerned (the asymmetric arrays are inputs if asym). *)
Record same_inputs {S} (o o' : obj S) : Prop := mkSI {
  si_I : forall f, In f input_ints -> oI o f = oI o' f;
  si_B : oB o B_asym = oB o' B_asym;
  si_N : forall f, In f input_intvecs -> oN o f = oN o' f;
  si_A : forall f, In f input_arrays_sym -> oA o f = oA o' f;
  si_As : oB o B_asym = Some true -> forall f, In f input_arrays_asym -> oA o f = oA o' f
}.

(** The results (booz_xform.hpp:270-381). *)
Definition output_arrays : list afield :=
  [A_s_b; A_Boozer_G; A_Boozer_I; A_Boozer_G_all; A_Boozer_I_all;
   A_bmnc_b; A_rmnc_b; A_zmns_b; A_numns_b; A_gmnc_b].
Definition output_arrays_asym : list afield := [A_bmns_b; A_rmns_b; A_zmnc_b; A_numnc_b; A_gmns_b].

Record same_outputs {S} (asy : bool) (o o' : obj S) : Prop := mkSO {
  so_I : oI o I_ns_b = oI o' I_ns_b /\ oI o I_mnboz = oI o' I_mnboz;
  so_N : oN o N_xm_b = oN o' N_xm_b /\ oN o N_xn_b = oN o' N_xn_b;
  so_A : forall f, In f output_arrays -> oA o f = oA o' f;
  so_As : asy = true -> forall f, In f output_arrays_asym -> oA o f = oA o' f
}.

(** run() called n times. *)
Fixpoint run_times {S} (n : nat) : prog S unit :=
  match n with O => Ret tt | Datatypes.S n' => bind (bx_run S) (fun _ => run_times n') end.

(** Element b of a vector member and element (k, b) of a matrix member, as the user sees them. *)
Definition elem {S} (o : obj S) (f : afield) (b : Z) : option (option (F S)) :=
  if (0 <=? b) && (b <? asize (oA o f)) then znth (adata (oA o f)) b else None.
Definition elem2 {S} (o : obj S) (f : afield) (k b : Z) : option (option (F S)) :=
  if (0 <=? k) && (k <? arows (oA o f)) && (0 <=? b) && (b <? acols (oA o f))
  then znth (adata (oA o f)) (k + b * arows (oA o f)) else None.
Definition elemN {S} (o : obj S) (f : nfield) (k : Z) : option (option Z) :=
  if (0 <=? k) && (k <? asize (oN o f)) then znth (adata (oN o f)) k else None.

(** The vocabulary of the theorems about init_from_vmec: what is documented about its
    arguments and what it stores, independently of the code. *)
From Coq Require Import ZArith QArith List String Bool.
From Verif Require Import Scalar Prog Wp Func Spec Vmec.
Import ListNotations.
Local Open Scope Z_scope.

Section VmecSpec.
Variable S : Scalar.
Notation arr := (arr S).
Notation obj := (obj S).
Notation F := (F S).
Local Notation toF := (fofZ S).

(** The Fourier arrays with the number of modes each should have. *)
Definition sym_args (v : vargs S) (mnmax mnmaxq : Z) : list (arr * Z) :=
  [(v_rmnc S v, mnmax); (v_zmns S v, mnmax); (v_lmns S v, mnmax);
   (v_bmnc S v, mnmaxq); (v_bsubumnc S v, mnmaxq); (v_bsubvmnc S v, mnmaxq)].
Definition asym_args (v : vargs S) (mnmax mnmaxq : Z) : list (arr * Z) :=
  [(v_rmns S v, mnmax); (v_zmnc S v, mnmax); (v_lmnc S v, mnmax);
   (v_bmns S v, mnmaxq); (v_bsubumns S v, mnmaxq); (v_bsubvmns S v, mnmaxq)].

(** The integer members that validation looks at have values, and no mode list is empty. *)
Record vready (o : obj) (i : Inp S) : Prop := mkVready {
  vr_asym : oB o B_asym = Some (asym i);
  vr_nfp : oI o I_nfp = Some (nfp i);
  vr_ntor : oI o I_ntor = Some (ntor i);
  vr_ntorq : oI o I_ntor_nyq = Some (ntorq i);
  vr_mnmax : oI o I_mnmax = Some (mnmax i);
  vr_mnmaxq : oI o I_mnmax_nyq = Some (mnmaxq i);
  vr_vecs : forall f, In f [N_xm; N_xn; N_xm_nyq; N_xn_nyq; N_compute_surfs] -> exists n g, vec_is (oN o f) n g;
  vr_pos : mnmax i <> 0 /\ mnmaxq i <> 0 /\ mnmax i <= INT_MAX /\ mnmaxq i <= INT_MAX;
  vr_int : 1 <= nfp i -> INT_MIN <= nfp i * ntor i <= INT_MAX /\ INT_MIN <= nfp i * ntorq i <= INT_MAX
}.

(** The documented requirements on shapes (and the conventions for the mode lists). *)
Record well_shaped (o : obj) (i : Inp S) (v : vargs S) : Prop := mkWS {
  ws_ns : 2 <= v_ns S v;
  ws_nfp : 1 <= nfp i;
  ws_iotas : asize (v_iotas S v) = v_ns S v;
  ws_flux : asize (v_phip S v) = 0 \/
    (asize (v_phip S v) = v_ns S v /\ asize (v_chi S v) = v_ns S v /\
     asize (v_pres S v) = v_ns S v /\ asize (v_phi S v) = v_ns S v);
  ws_size : asize (oN o N_xm) = mnmax i /\ asize (oN o N_xn) = mnmax i;
  ws_sizeq : asize (oN o N_xm_nyq) = mnmaxq i /\ asize (oN o N_xn_nyq) = mnmaxq i;
  ws_first : forall f, In f [N_xm; N_xn; N_xm_nyq; N_xn_nyq] -> elemN o f 0 = Some (Some 0);
  ws_last : elemN o N_xn (mnmax i - 1) = Some (Some (nfp i * ntor i));
  ws_lastq : elemN o N_xn_nyq (mnmaxq i - 1) = Some (Some (nfp i * ntorq i));
  ws_sym : forall a r, In (a, r) (sym_args v (mnmax i) (mnmaxq i)) -> arows a = r /\ acols a = v_ns S v;
  ws_asym : asym i = true ->
    forall a r, In (a, r) (asym_args v (mnmax i) (mnmaxq i)) -> arows a = r /\ acols a = v_ns S v;
  ws_surfs : forall j x, elemN o N_compute_surfs j = Some (Some x) -> 0 <= x <= v_ns S v - 2
}.

(** The contents of the arguments. *)
Record vdat : Type := mkVdat {
  d_ns : Z; d_iotas : Z -> F;
  d_rmnc : Z -> Z -> F; d_zmns : Z -> Z -> F; d_lmns : Z -> Z -> F;
  d_bmnc : Z -> Z -> F; d_bsubumnc : Z -> Z -> F; d_bsubvmnc : Z -> Z -> F;
  d_rmns : Z -> Z -> F; d_zmnc : Z -> Z -> F; d_lmnc : Z -> Z -> F;
  d_bmns : Z -> Z -> F; d_bsubumns : Z -> Z -> F; d_bsubvmns : Z -> Z -> F;
  d_flux : bool; d_phip : Z -> F; d_chi : Z -> F; d_pres : Z -> F; d_phi : Z -> F
}.

Record vholds (v : vargs S) (i : Inp S) (d : vdat) : Prop := mkVholds {
  vh_ns : v_ns S v = d_ns d;
  vh_iotas : vec_is (v_iotas S v) (d_ns d) (d_iotas d);
  vh_rmnc : mat_is (v_rmnc S v) (mnmax i) (d_ns d) (d_rmnc d);
  vh_zmns : mat_is (v_zmns S v) (mnmax i) (d_ns d) (d_zmns d);
  vh_lmns : mat_is (v_lmns S v) (mnmax i) (d_ns d) (d_lmns d);
  vh_bmnc : mat_is (v_bmnc S v) (mnmaxq i) (d_ns d) (d_bmnc d);
  vh_bsubumnc : mat_is (v_bsubumnc S v) (mnmaxq i) (d_ns d) (d_bsubumnc d);
  vh_bsubvmnc : mat_is (v_bsubvmnc S v) (mnmaxq i) (d_ns d) (d_bsubvmnc d);
  vh_rmns : asym i = true -> mat_is (v_rmns S v) (mnmax i) (d_ns d) (d_rmns d);
  vh_zmnc : asym i = true -> mat_is (v_zmnc S v) (mnmax i) (d_ns d) (d_zmnc d);
  vh_lmnc : asym i = true -> mat_is (v_lmnc S v) (mnmax i) (d_ns d) (d_lmnc d);
  vh_bmns : asym i = true -> mat_is (v_bmns S v) (mnmaxq i) (d_ns d) (d_bmns d);
  vh_bsubumns : asym i = true -> mat_is (v_bsubumns S v) (mnmaxq i) (d_ns d) (d_bsubumns d);
  vh_bsubvmns : asym i = true -> mat_is (v_bsubvmns S v) (mnmaxq i) (d_ns d) (d_bsubvmns d);
  vh_noflux : d_flux d = false -> asize (v_phip S v) = 0;
  vh_phip : d_flux d = true -> vec_is (v_phip S v) (d_ns d) (d_phip d);
  vh_chi : d_flux d = true -> vec_is (v_chi S v) (d_ns d) (d_chi d);
  vh_pres : d_flux d = true -> vec_is (v_pres S v) (d_ns d) (d_pres d);
  vh_phi : d_flux d = true -> vec_is (v_phi S v) (d_ns d) (d_phi d)
}.

(** The members of the object that init_from_vmec uses (and leaves alone). *)
Record vbase (o : obj) (i : Inp S) : Prop := mkVbase {
  vb_asym : oB o B_asym = Some (asym i);
  vb_nfp : oI o I_nfp = Some (nfp i);
  vb_mpol : oI o I_mpol = Some (mpol i);
  vb_ntor : oI o I_ntor = Some (ntor i);
  vb_mnmax : oI o I_mnmax = Some (mnmax i);
  vb_mpolq : oI o I_mpol_nyq = Some (mpolq i);
  vb_ntorq : oI o I_ntor_nyq = Some (ntorq i);
  vb_mnmaxq : oI o I_mnmax_nyq = Some (mnmaxq i);
  vb_verb : oI o I_verbose = Some (verb i);
  vb_xm : vec_is (oN o N_xm) (mnmax i) (xm i);
  vb_xn : vec_is (oN o N_xn) (mnmax i) (xn i);
  vb_xmq : vec_is (oN o N_xm_nyq) (mnmaxq i) (xmq i);
  vb_xnq : vec_is (oN o N_xn_nyq) (mnmaxq i) (xnq i);
  vb_surf : exists n g, vec_is (oN o N_compute_surfs) n g
}.

(** The radial grids: hs = 1/(ns-1), full-grid points hs*j, half-grid points hs*(j+1/2). *)
Section Radial.
Variable d : vdat.
Definition hs : F := (f1 S / (toF (d_ns d) - f1 S))%sc.
Definition s_half (j : Z) : F := (hs * (toF j + flit S (1 # 2)))%sc.
Definition sq_full (j : Z) : F := if j =? 0 then f1 S else fsqrt S (hs * toF j)%sc.
Definition sq_half (j : Z) : F := fsqrt S (s_half j).
(** mode number m, full-grid values x *)
Definition to_half (m : Z) (x : Z -> F) (j : Z) : F :=
  if Z.rem m 2 =? 0 then (flit S (1 # 2) * (x j + x (j + 1)%Z))%sc
  else if (m =? 1) && (j =? 0) then
    ((flit S (3 # 2) * x 1 / sq_full 1 - flit S (1 # 2) * x 2 / sq_full 2) * sq_half 0)%sc
  else (flit S (1 # 2) * (x j / sq_full j + x (j + 1)%Z / sq_full (j + 1)%Z) * sq_half j)%sc.
End Radial.

(** The inputs of run() after init_from_vmec. *)
Definition from_vmec (i : Inp S) (d : vdat) : Inp S := {|
  asym := asym i; nfp := nfp i; mpol := mpol i; ntor := ntor i; mnmax := mnmax i;
  mpolq := mpolq i; ntorq := ntorq i; mnmaxq := mnmaxq i; nsin := d_ns d - 1;
  mboz := 6 * mpol i; nboz := Z.max (2 * ntor i - 1) 0; verb := verb i;
  xm := xm i; xn := xn i; xmq := xmq i; xnq := xnq i;
  nsurf := d_ns d - 1; surf := fun j => j;
  sin_ := s_half d; iota := fun j => d_iotas d (j + 1);
  rmnc := fun k => to_half d (xm i k) (d_rmnc d k);
  zmns := fun k => to_half d (xm i k) (d_zmns d k);
  lmns := fun k j => d_lmns d k (j + 1);
  bmnc := fun k j => d_bmnc d k (j + 1);
  bsubumnc := fun k j => d_bsubumnc d k (j + 1);
  bsubvmnc := fun k j => d_bsubvmnc d k (j + 1);
  rmns := fun k => to_half d (xm i k) (d_rmns d k);
  zmnc := fun k => to_half d (xm i k) (d_zmnc d k);
  lmnc := fun k j => d_lmnc d k (j + 1);
  bmns := fun k j => d_bmns d k (j + 1);
  bsubumns := fun k j => d_bsubumns d k (j + 1);
  bsubvmns := fun k j => d_bsubvmns d k (j + 1)
|}.

(** When the accesses of init_from_vmec stay inside its arguments: the correction of the m = 1
    modes uses the third surface, and verbose > 1 prints rmnc of mode 0 on four surfaces and of
    four modes on surface 0. *)
Definition no_m1 (i : Inp S) : Prop := forall k, 0 <= k < mnmax i -> xm i k <> 1.
Definition room (i : Inp S) (d : vdat) : Prop :=
  (3 <= d_ns d \/ no_m1 i) /\ (verb i <= 1 \/ (4 <= d_ns d /\ 4 <= mnmax i)).
(** No int overflow. *)
Definition vints (i : Inp S) (d : vdat) : Prop :=
  d_ns d <= INT_MAX /\ 1 <= mnmax i <= INT_MAX /\ 1 <= mnmaxq i <= INT_MAX /\
  (INT_MIN <= nfp i * ntor i <= INT_MAX /\ INT_MIN <= nfp i * ntorq i <= INT_MAX) /\
  INT_MIN <= 6 * mpol i <= INT_MAX /\ INT_MIN <= 2 * ntor i - 1 /\ 2 * ntor i <= INT_MAX.

(** What is printed. *)
Definition upTo {T} (n : Z) (g : Z -> T) : list T := map (fun k => g (Z.of_nat k)) (seq 0 (Z.to_nat n)).
Definition vmec_lines (i : Inp S) (d : vdat) : list (event S) :=
  (if 0 <? verb i then
     mkEv "Read ns, mpol, ntor, mnmax, mnmax_nyq" [d_ns d; mpol i; ntor i; mnmax i; mnmaxq i] [] ::
     (if 1 <? verb i then
        [mkEv "iotas" [] (upTo (d_ns d) (d_iotas d)); mkEv "iota" [] (upTo (d_ns d) (d_iotas d));
         mkEv "xm" (upTo (mnmax i) (xm i)) []; mkEv "xn" (upTo (mnmax i) (xn i)) [];
         mkEv "rmnc, increasing ns index" [] (upTo 4 (fun j => d_rmnc d 0 j));
         mkEv "rmnc, increasing mnmax index" [] (upTo 4 (fun k => d_rmnc d k 0))]
      else [])
   else []).

(** The flux functions: empty, or all copied, phip with a different normalisation. *)
Definition fluxes_stored (o' : obj) (d : vdat) : Prop :=
  if d_flux d then
    vec_is (oA o' A_phip) (d_ns d) (fun j => - d_phip d j / ftwopi S)%sc /\
    vec_is (oA o' A_chi) (d_ns d) (d_chi d) /\ vec_is (oA o' A_pres) (d_ns d) (d_pres d) /\
    vec_is (oA o' A_phi) (d_ns d) (d_phi d) /\
    oF o' F_toroidal_flux = Some (d_phi d (d_ns d - 1))
  else
    (forall f, In f [A_phip; A_chi; A_pres; A_phi] -> asize (oA o' f) = 0) /\
    oF o' F_toroidal_flux = Some (flit S (0 # 1)).

(** The members init_from_vmec may change; everything else is left alone. *)
Definition vmec_ints : list ifield := [I_ns_in; I_mboz; I_nboz].
Definition vmec_arrays : list afield :=
  [A_s_in; A_iota; A_rmnc; A_zmns; A_lmns; A_bmnc; A_bsubumnc; A_bsubvmnc; A_phi; A_phip; A_chi; A_pres].
Definition vmec_arrays_asym : list afield := [A_rmns; A_zmnc; A_lmnc; A_bmns; A_bsubumns; A_bsubvmns].
Record vmec_frame (asy : bool) (o o' : obj) : Prop := mkVF {
  vf_B : forall f, oB o' f = oB o f;
  vf_I : forall f, ~ In f vmec_ints -> oI o' f = oI o f;
  vf_F : forall f, f <> F_toroidal_flux -> oF o' f = oF o f;
  vf_N : forall f, f <> N_compute_surfs -> oN o' f = oN o f;
  vf_A : forall f, ~ In f vmec_arrays -> (asy = true -> ~ In f vmec_arrays_asym) -> oA o' f = oA o f
}.

(** Elements of the arguments. *)
Definition at1 (a : arr) (j : Z) : option (option F) :=
  if (0 <=? j) && (j <? asize a) then znth (adata a) j else None.
Definition at2 (a : arr) (k j : Z) : option (option F) :=
  if (0 <=? k) && (k <? arows a) && (0 <=? j) && (j <? acols a)
  then znth (adata a) (k + j * arows a) else None.

(** Which argument goes with which member: those already on the half grid and those on the
    full grid. *)
Definition half_sym (v : vargs S) : list (afield * arr) :=
  [(A_lmns, v_lmns S v); (A_bmnc, v_bmnc S v); (A_bsubumnc, v_bsubumnc S v); (A_bsubvmnc, v_bsubvmnc S v)].
Definition half_asym (v : vargs S) : list (afield * arr) :=
  [(A_lmnc, v_lmnc S v); (A_bmns, v_bmns S v); (A_bsubumns, v_bsubumns S v); (A_bsubvmns, v_bsubvmns S v)].
Definition full_sym (v : vargs S) : list (afield * arr) := [(A_rmnc, v_rmnc S v); (A_zmns, v_zmns S v)].
Definition full_asym (v : vargs S) : list (afield * arr) := [(A_rmns, v_rmns S v); (A_zmnc, v_zmnc S v)].

(** A call of init_from_vmec. *)
Definition vmec_ok (v : vargs S) (o o' : obj) (ev : list (event S)) : Prop :=
  run (init_from_vmec S v) o = ROk tt o' ev.

(** The requirements of run() that init_from_vmec does not check: mode numbers inside the
    tables, and a grid for the default resolution that can be counted with an int. *)
Record fits_run (i : Inp S) : Prop := mkFit {
  ft_mpol : 2 <= mpol i;
  ft_ntor : 0 <= ntor i;
  ft_mpolq : 1 <= mpolq i < INT_MAX;
  ft_ntorq : 0 <= ntorq i < INT_MAX;
  ft_xm : forall k, 0 <= k < mnmax i -> 0 <= xm i k < mpol i;
  ft_xn : forall k, 0 <= k < mnmax i -> Z.abs (xn i k) <= Z.min INT_MAX (nfp i * ntor i);
  ft_xmq : forall k, 0 <= k < mnmaxq i -> 0 <= xmq i k <= mpolq i;
  ft_xnq : forall k, 0 <= k < mnmaxq i -> Z.abs (xnq i k) <= Z.min INT_MAX (nfp i * ntorq i);
  ft_nfp : nfp i <= INT_MAX;
  ft_grid : (24 * mpol i + 2) * Z.max 1 (8 * ntor i - 2) <= INT_MAX;
  ft_gridz : nfp i * Z.max 1 (8 * ntor i - 2) <= INT_MAX
}.

(** A call that satisfies all the requirements. *)
Record accepted (o : obj) (i : Inp S) (v : vargs S) (d : vdat) : Prop := mkAcc {
  ac_base : vbase o i;
  ac_wf : wf_obj o;
  ac_data : vholds v i d;
  ac_shape : well_shaped o i v;
  ac_room : room i d;
  ac_int : vints i d
}.

End VmecSpec.
Arguments sym_args {S}. Arguments asym_args {S}. Arguments vready {S}. Arguments well_shaped {S}.
Arguments vholds {S}. Arguments vbase {S}. Arguments hs {S}. Arguments s_half {S}.
Arguments sq_full {S}. Arguments sq_half {S}. Arguments to_half {S}. Arguments from_vmec {S}.
Arguments no_m1 {S}. Arguments room {S}. Arguments vints {S}. Arguments accepted {S}. Arguments vmec_lines {S}.
Arguments fluxes_stored {S}. Arguments vmec_frame {S}. Arguments mkVF {S}. Arguments at1 {S}. Arguments at2 {S}.
Arguments half_sym {S}. Arguments half_asym {S}. Arguments full_sym {S}. Arguments full_asym {S}.
Arguments vmec_ok {S}. Arguments fits_run {S}.

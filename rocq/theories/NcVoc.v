(** The vocabulary of the theorems about files, for users: objects after run(), cells of files. *)
From Coq Require Import ZArith QArith List String Bool.
From Verif Require Import Scalar Prog Model Wp Func Spec Vmec VmecSpec Nc NcModel NcSpec.
Import ListNotations.
Local Open Scope Z_scope.

Section NcVoc.
Context {S : Scalar}.
Notation obj := (obj S).
Notation world := (world S).
Notation file := (ncfile S).
Notation F := (F S).

(** The same inputs with another value of verbose *)
Definition set_verb (i : Inp S) (v : Z) : Inp S :=
  {| asym := asym i; nfp := nfp i; mpol := mpol i; ntor := ntor i; mnmax := mnmax i; mpolq := mpolq i;
     ntorq := ntorq i; mnmaxq := mnmaxq i; nsin := nsin i; mboz := mboz i; nboz := nboz i; verb := v;
     xm := xm i; xn := xn i; xmq := xmq i; xnq := xnq i; nsurf := nsurf i; surf := surf i; sin_ := sin_ i; iota := iota i;
     rmnc := rmnc i; zmns := zmns i; lmns := lmns i; bmnc := bmnc i; bsubumnc := bsubumnc i; bsubvmnc := bsubvmnc i;
     rmns := rmns i; zmnc := zmnc i; lmnc := lmnc i; bmns := bmns i; bsubumns := bsubumns i; bsubvmns := bsubvmns i |}.
(** What the user may set between run() and write_boozmn() without invalidating the results: verbose,
    the flux functions, aspect and toroidal_flux, which run() does not use. *)
Record retouched (o o' : obj) : Prop := mkRt {
  rt_B : forall f, oB o' f = oB o f;
  rt_I : forall f, f <> I_verbose -> oI o' f = oI o f;
  rt_F : forall f, ~ In f [F_aspect; F_toroidal_flux] -> oF o' f = oF o f;
  rt_N : forall f, oN o' f = oN o f;
  rt_A : forall f, ~ In f flux_arrays -> oA o' f = oA o f;
  rt_wf : wf_obj o'
}.
(** run() has succeeded on this object, whose inputs are still [i]. *)
Definition after_run (o : obj) (i : Inp S) : Prop := exists o0 o1 ev v,
  valid o0 (set_verb i v) /\ run_ok o0 o1 ev /\ retouched o1 o /\ oI o I_verbose = Some (verb i).
(** No flux functions, or all of them, with [n] values. *)
Definition fluxes_ok (o : obj) (n : Z) : Prop :=
  asize (oA o A_phip) = 0 \/ forall f, In f flux_arrays -> exists g, vec_is (oA o f) n g.
Definition has_fluxes (o : obj) : bool := negb (asize (oA o A_phip) =? 0).
(** An object that can be written: run() was called with at least one surface; the flux functions
    are consistent; the sizes are within the limits of a NetCDF classic file. *)
Record writable (version : string) (o : obj) (i : Inp S) : Prop := mkWritable {
  wb_run : after_run o i;
  wb_flux : fluxes_ok o (nsin i + 1);
  wb_nsurf : 1 <= nsurf i <= 2147483644;
  wb_nsin : nsin i <= 2147483643;
  wb_version : (String.length version < 2000)%nat
}.
(** The files already open have smaller numbers than the next one: true initially, and kept. *)
Definition open_ok (w : world) : Prop := Forall (fun p => fst p < wNext w) (wOpen w).
(** An object of which verbose is set (the constructor does so) *)
Definition usable (o : obj) : Prop := wf_obj o /\ exists v, oI o I_verbose = Some v.

(** Element [p] of a variable, as a reader asking for ints or doubles gets it. *)
Definition icell (f : file) (x : string) (p : Z) : option (option Z) :=
  match find_var f x with
  | Some v => match to_int (vr_val v) with Some (l, false) => znth l p | _ => None end
  | None => None
  end.
Definition dcell (f : file) (x : string) (p : Z) : option (option F) :=
  match find_var f x with
  | Some v => match to_dbl (vr_val v) with Some (l, false) => znth l p | _ => None end
  | None => None
  end.
(** All cells of a variable have values. *)
Definition determinate (v : ncval S) : Prop :=
  match v with VInt l => Forall (fun c => c <> None) l | VDbl l => Forall (fun c => c <> None) l | VChar _ => True end.

(** What is read back. *)
Definition kept_ints : list ifield := [I_nfp; I_mboz; I_nboz; I_mnboz; I_ns_in; I_ns_b].
Definition kept_intvecs : list nfield := [N_xm_b; N_xn_b; N_compute_surfs].
Definition kept_arrays : list afield := [A_iota; A_Boozer_G_all; A_Boozer_I_all] ++ sym_outs.

(** The half grid of VMEC, as init_from_vmec computes it *)
Definition vmec_grid (o : obj) (i : Inp S) : Prop :=
  forall j, 0 <= j < nsin i ->
    elem o A_s_in j = Some (Some (f1 S / (fofZ S (nsin i + 1) - f1 S) * (fofZ S j + flit S (1 # 2)))%sc).
(** [o'], which has read a file written from [o], holds what [o] holds.  phip[0] is 0 (it is not
    in the file).  Without flux functions in [o], those of [o'] are all 0. *)
Record restored (o : obj) (i : Inp S) (o' : obj) : Prop := mkRst {
  rs_B : oB o' B_asym = oB o B_asym;
  rs_I : forall g, In g kept_ints -> oI o' g = oI o g;
  rs_N : forall g, In g kept_intvecs -> oN o' g = oN o g;
  rs_A : forall g, In g kept_arrays -> oA o' g = oA o g;
  rs_As : asym i = true -> forall g, In g asym_outs -> oA o' g = oA o g;
  rs_s_b : vmec_grid o i -> oA o' A_s_b = oA o A_s_b;
  rs_flux : has_fluxes o = true ->
    (forall g, In g [A_phi; A_chi; A_pres] -> oA o' g = oA o g) /\
    asize (oA o' A_phip) = asize (oA o A_phip) /\
    (forall j, elem o' A_phip j = if j =? 0 then Some (Some (fofZ S 0)) else elem o A_phip j) /\
    Some (oF o' F_toroidal_flux) = elem o A_phi (nsin i);
  rs_noflux : has_fluxes o = false ->
    (forall g, In g flux_arrays -> forall j, 0 <= j < nsin i + 1 -> elem o' g j = Some (Some (fofZ S 0))) /\
    oF o' F_toroidal_flux = Some (fofZ S 0)
}.

(** The contents of a boozmn file for the object [o] (write_boozmn.cpp:32-144). *)
Record holds_results (o : obj) (i : Inp S) (f : file) : Prop := mkHolds {
  hr_lasym : icell f "lasym__logical__" 0 = Some (Some (if asym i then 1 else 0));
  hr_ns : icell f "ns_b" 0 = Some (Some (nsin i + 1));
  hr_ints : forall x g, In (x, g) [("nfp_b", I_nfp); ("mboz_b", I_mboz); ("nboz_b", I_nboz); ("mnboz_b", I_mnboz)]%string ->
    icell f x 0 = Some (oI o g) /\ oI o g <> None;
  hr_modes : forall x g, In (x, g) [("ixm_b", N_xm_b); ("ixn_b", N_xn_b)]%string ->
    forall k, 0 <= k < asize (oN o g) -> icell f x k = elemN o g k /\ elemN o g k <> Some None;
  hr_jlist : forall j, 0 <= j < nsurf i -> exists c,
    elemN o N_compute_surfs j = Some (Some c) /\ icell f "jlist" j = Some (Some (c + 2));
  hr_radial : forall x g, In (x, g) [("iota_b", A_iota); ("bvco_b", A_Boozer_G_all); ("buco_b", A_Boozer_I_all)]%string ->
    dcell f x 0 = Some (Some (fofZ S 0)) /\
    forall j, 0 <= j < nsin i -> dcell f x (j + 1) = elem o g j /\ elem o g j <> Some None;
  hr_flux : has_fluxes o = true ->
    forall x g, In (x, g) [("phi_b", A_phi); ("phip_b", A_phip); ("chi_b", A_chi); ("pres_b", A_pres)]%string ->
    forall j, 0 <= j < nsin i + 1 ->
      dcell f x j = (if (j =? 0) && (if afield_eq_dec g A_phip then true else false) then Some (Some (fofZ S 0)) else elem o g j) /\
      elem o g j <> Some None;
  hr_noflux : has_fluxes o = false -> forall x, In x ["phi_b"; "phip_b"; "chi_b"; "pres_b"]%string ->
    forall j, 0 <= j < nsin i + 1 -> dcell f x j = Some (Some (fofZ S 0));
  hr_mats : forall x g, In (x, g) bvars_sym \/ (asym i = true /\ In (x, g) bvars_asym) ->
    forall k b, 0 <= k < mnboz i -> 0 <= b < nsurf i -> exists a, elem2 o g k b = Some (Some a) /\
      dcell f x (b * mnboz i + k) =
        Some (Some (if (if afield_eq_dec g A_numns_b then true else if afield_eq_dec g A_numnc_b then true else false)
                    then fneg S a else a));
  hr_aspect : dcell f "aspect_b" 0 = Some (oF o F_aspect)
}.

(** The requirements of init_from_vmec on what is in a wout file. *)
Record wout_ok (i : Inp S) (d : vdat S) : Prop := mkWok {
  wk_ns : 2 <= d_ns S d;
  wk_nfp : 1 <= nfp i;
  wk_first : xm i 0 = 0 /\ xn i 0 = 0 /\ xmq i 0 = 0 /\ xnq i 0 = 0;
  wk_last : xn i (mnmax i - 1) = nfp i * ntor i;
  wk_lastq : xnq i (mnmaxq i - 1) = nfp i * ntorq i;
  wk_room : room i d;
  wk_ints : vints i d
}.
(** A complete wout file with such contents. *)
Record good_wout (f : file) (asp : F) (i : Inp S) (d : vdat S) : Prop := mkGw {
  gw_file : exists la, wfile S f la asp i d /\ wsane S la i d;
  gw_all : wcomplete S f i d;
  gw_ok : wout_ok i d
}.
(** compute_surfs has values, all of them between 0 and [n] - 1. *)
Definition selects (o : obj) (n : Z) : Prop :=
  exists m g, vec_is (oN o N_compute_surfs) m g /\ forall j, 0 <= j < m -> 0 <= g j < n.
End NcVoc.

(** The vocabulary of the theorems about reading and writing NetCDF files. *)
From Coq Require Import ZArith QArith List String Bool.
From Verif Require Import Scalar Prog Wp Func Spec Vmec VmecSpec Nc NcModel.
Import ListNotations.
Local Open Scope Z_scope.

Section NcSpec.
Variable S : Scalar.
Notation arr := (arr S).
Notation obj := (obj S).
Notation world := (world S).
Notation file := (ncfile S).
Notation F := (F S).
Local Notation toF := (fofZ S).

(** ** Contents of a file: the variable is absent, or it has exactly these elements. *)
Definition holds_ints (f : file) (x : string) (n : Z) (g : Z -> Z) : Prop :=
  forall v, find_var f x = Some v -> exists l, to_int (vr_val v) = Some (l, false) /\ vec_is (mkArr n 1 l) n g.
Definition holds_int (f : file) (x : string) (z : Z) : Prop := holds_ints f x 1 (fun _ => z).
Definition holds_vec (f : file) (x : string) (n : Z) (g : Z -> F) : Prop :=
  forall v, find_var f x = Some v -> exists l, to_dbl (vr_val v) = Some (l, false) /\ vec_is (mkArr n 1 l) n g.
Definition holds_mat (f : file) (x : string) (r c : Z) (g : Z -> Z -> F) : Prop :=
  forall v, find_var f x = Some v -> exists l, to_dbl (vr_val v) = Some (l, false) /\ mat_is (mkArr r c l) r c g.
Definition holds_dim (f : file) (x : string) (n : Z) : Prop :=
  forall m, lookup (nf_dims f) x = Some m -> m = n.
Definition present (f : file) (x : string) : Prop := find_var f x <> None.
Definition has_dim (f : file) (x : string) : Prop := lookup (nf_dims f) x <> None.

(** ** boozmn files *)
Record bdat : Type := mkBdat {
  b_lasym : Z; b_nfp : Z; b_mboz : Z; b_nboz : Z; b_mnboz : Z; b_radius : Z; b_nsurf : Z; b_ns : Z;
  b_xm : Z -> Z; b_xn : Z -> Z; b_jlist : Z -> Z;
  b_iota : Z -> F; b_G : Z -> F; b_I : Z -> F;
  b_phi : Z -> F; b_phip : Z -> F; b_chi : Z -> F; b_pres : Z -> F;
  b_mat : afield -> Z -> Z -> F      (* by the member the variable is read into *)
}.
Definition bvars_sym : list (string * afield) :=
  [("bmnc_b", A_bmnc_b); ("rmnc_b", A_rmnc_b); ("zmns_b", A_zmns_b); ("pmns_b", A_numns_b); ("gmn_b", A_gmnc_b)]%string.
Definition bvars_asym : list (string * afield) :=
  [("bmns_b", A_bmns_b); ("rmns_b", A_rmns_b); ("zmnc_b", A_zmnc_b); ("pmnc_b", A_numnc_b); ("gmns_b", A_gmns_b)]%string.
Definition b_asym (d : bdat) : bool := negb (b_lasym d =? 0).

Record bfile (f : file) (d : bdat) : Prop := mkBfile {
  bf_lasym : holds_int f "lasym__logical__" (b_lasym d);
  bf_nfp : holds_int f "nfp_b" (b_nfp d);
  bf_mboz : holds_int f "mboz_b" (b_mboz d);
  bf_nboz : holds_int f "nboz_b" (b_nboz d);
  bf_mnboz : holds_int f "mnboz_b" (b_mnboz d);
  bf_ns : holds_int f "ns_b" (b_ns d);
  bf_xm : holds_ints f "ixm_b" (b_mnboz d) (b_xm d);
  bf_xn : holds_ints f "ixn_b" (b_mnboz d) (b_xn d);
  bf_jlist : holds_ints f "jlist" (b_nsurf d) (b_jlist d);
  bf_radius : holds_dim f "radius" (b_radius d);
  bf_nsurf : holds_dim f "comput_surfs" (b_nsurf d);
  bf_iota : holds_vec f "iota_b" (b_radius d) (b_iota d);
  bf_G : holds_vec f "bvco_b" (b_radius d) (b_G d);
  bf_I : holds_vec f "buco_b" (b_radius d) (b_I d);
  bf_phi : holds_vec f "phi_b" (b_radius d) (b_phi d);
  bf_phip : holds_vec f "phip_b" (b_radius d) (b_phip d);
  bf_chi : holds_vec f "chi_b" (b_radius d) (b_chi d);
  bf_pres : holds_vec f "pres_b" (b_radius d) (b_pres d);
  bf_sym : forall x m, In (x, m) bvars_sym -> holds_mat f x (b_mnboz d) (b_nsurf d) (b_mat d m);
  bf_asym : b_asym d = true -> forall x m, In (x, m) bvars_asym -> holds_mat f x (b_mnboz d) (b_nsurf d) (b_mat d m)
}.
(** The numbers are usable: something is stored, and jlist - 2 does not overflow. *)
Record bsane (d : bdat) : Prop := mkBsane {
  bs_mnboz : 1 <= b_mnboz d;
  bs_radius : 1 <= b_radius d <= INT_MAX;
  bs_nsurf : 1 <= b_nsurf d <= INT_MAX;
  bs_jlist : forall j, 0 <= j < b_nsurf d -> INT_MIN + 2 <= b_jlist d j <= INT_MAX
}.
(** What read_boozmn needs. *)
Definition bneed_vars (asy : bool) : list string :=
  ["lasym__logical__"; "nfp_b"; "mboz_b"; "nboz_b"; "mnboz_b"; "ixm_b"; "ixn_b"; "iota_b"; "bvco_b"; "buco_b";
   "phi_b"; "phip_b"; "pres_b"; "jlist"; "ns_b"]%string ++
  map fst bvars_sym ++ (if asy then map fst bvars_asym else []).
Definition bneed_dims : list string := ["radius"; "comput_surfs"]%string.
Definition bcomplete (f : file) (d : bdat) : Prop :=
  (forall x, In x (bneed_vars (b_asym d)) -> present f x) /\ (forall x, In x bneed_dims -> has_dim f x).

(** The sign of nu is opposite in the file. *)
Definition bsign (m : afield) (x : F) : F :=
  match m with A_numns_b | A_numnc_b => fneg S x | _ => x end.

(** The members read_boozmn assigns. *)
Definition bread_ints : list ifield := [I_nfp; I_mboz; I_nboz; I_mnboz; I_ns_in; I_ns_b].
Definition bread_intvecs : list nfield := [N_xm_b; N_xn_b; N_compute_surfs].
Definition bread_arrays : list afield :=
  [A_iota; A_Boozer_G_all; A_Boozer_I_all; A_phi; A_phip; A_chi; A_pres; A_s_b] ++ map snd bvars_sym ++ map snd bvars_asym.

(** chi is treated separately because errors in reading it are ignored. *)
Record loaded (d : bdat) (o o' : obj) : Prop := mkLoaded {
  ld_asym : oB o' B_asym = Some (b_asym d);
  ld_nfp : oI o' I_nfp = Some (b_nfp d);
  ld_mboz : oI o' I_mboz = Some (b_mboz d);
  ld_nboz : oI o' I_nboz = Some (b_nboz d);
  ld_mnboz : oI o' I_mnboz = Some (b_mnboz d);
  ld_ns_in : oI o' I_ns_in = Some (b_radius d - 1);
  ld_ns_b : oI o' I_ns_b = Some (b_nsurf d);
  ld_xm : vec_is (oN o' N_xm_b) (b_mnboz d) (b_xm d);
  ld_xn : vec_is (oN o' N_xn_b) (b_mnboz d) (b_xn d);
  ld_surfs : vec_is (oN o' N_compute_surfs) (b_nsurf d) (fun j => b_jlist d j - 2);
  ld_iota : vec_is (oA o' A_iota) (b_radius d - 1) (fun j => b_iota d (j + 1));
  ld_G : vec_is (oA o' A_Boozer_G_all) (b_radius d - 1) (fun j => b_G d (j + 1));
  ld_I : vec_is (oA o' A_Boozer_I_all) (b_radius d - 1) (fun j => b_I d (j + 1));
  ld_phi : vec_is (oA o' A_phi) (b_radius d) (b_phi d);
  ld_phip : vec_is (oA o' A_phip) (b_radius d) (b_phip d);
  ld_chi : asize (oA o' A_chi) = b_radius d;
  ld_pres : vec_is (oA o' A_pres) (b_radius d) (b_pres d);
  ld_flux : oF o' F_toroidal_flux = Some (b_phi d (b_radius d - 1));
  ld_s_b : vec_is (oA o' A_s_b) (b_nsurf d)
    (fun j => f1 S / (toF (b_ns d) - f1 S) * (toF (b_jlist d j - 2) + flit S (1 # 2)))%sc;
  ld_sym : forall x m, In (x, m) bvars_sym ->
    mat_is (oA o' m) (b_mnboz d) (b_nsurf d) (fun k b => bsign m (b_mat d m k b));
  ld_matA : forall x m, In (x, m) bvars_asym ->
    if b_asym d then mat_is (oA o' m) (b_mnboz d) (b_nsurf d) (fun k b => bsign m (b_mat d m k b))
    else asize (oA o' m) = 0;
  ld_B : forall g, g <> B_asym -> oB o' g = oB o g;
  ld_Is : forall g, ~ In g bread_ints -> oI o' g = oI o g;
  ld_F : forall g, g <> F_toroidal_flux -> oF o' g = oF o g;
  ld_N : forall g, ~ In g bread_intvecs -> oN o' g = oN o g;
  ld_A : forall g, ~ In g bread_arrays -> oA o' g = oA o g;
  ld_wf : wf_obj o'
}.

(** ** wout files *)
(** The contents, by variable name: [la] is lasym__logical__, [asp] is aspect, the numbers and mode
    lists are in [i], the arrays in [d]. *)
Definition wmats (i : Inp S) (d : vdat S) : list (string * Z * (Z -> Z -> F)) :=
  [("rmnc", mnmax i, d_rmnc S d); ("zmns", mnmax i, d_zmns S d); ("lmns", mnmax i, d_lmns S d);
   ("bmnc", mnmaxq i, d_bmnc S d); ("bsubumnc", mnmaxq i, d_bsubumnc S d); ("bsubvmnc", mnmaxq i, d_bsubvmnc S d)]%string.
Definition wmats_asym (i : Inp S) (d : vdat S) : list (string * Z * (Z -> Z -> F)) :=
  [("rmns", mnmax i, d_rmns S d); ("zmnc", mnmax i, d_zmnc S d); ("lmnc", mnmax i, d_lmnc S d);
   ("bmns", mnmaxq i, d_bmns S d); ("bsubumns", mnmaxq i, d_bsubumns S d); ("bsubvmns", mnmaxq i, d_bsubvmns S d)]%string.
Definition wvecs (d : vdat S) : list (string * (Z -> F)) :=
  [("chi", d_chi S d); ("phipf", d_phip S d); ("pres", d_pres S d); ("phi", d_phi S d)]%string.
Record wfile (f : file) (la : Z) (asp : F) (i : Inp S) (d : vdat S) : Prop := mkWfile {
  wf_lasym : holds_int f "lasym__logical__" la;
  wf_ns : holds_int f "ns" (d_ns S d);
  wf_nfp : holds_int f "nfp" (nfp i);
  wf_mpol : holds_int f "mpol" (mpol i);
  wf_ntor : holds_int f "ntor" (ntor i);
  wf_mnmax : holds_int f "mnmax" (mnmax i);
  wf_mnmaxq : holds_int f "mnmax_nyq" (mnmaxq i);
  wf_aspect : holds_vec f "aspect" 1 (fun _ => asp);
  wf_iotas : holds_vec f "iotas" (d_ns S d) (d_iotas S d);
  wf_xm : holds_ints f "xm" (mnmax i) (xm i);
  wf_xn : holds_ints f "xn" (mnmax i) (xn i);
  wf_xmq : holds_ints f "xm_nyq" (mnmaxq i) (xmq i);
  wf_xnq : holds_ints f "xn_nyq" (mnmaxq i) (xnq i);
  wf_flux : d_flux S d = true -> forall x g, In (x, g) (wvecs d) -> holds_vec f x (d_ns S d) g;
  wf_mat : forall x n g, In (x, n, g) (wmats i d) -> holds_mat f x n (d_ns S d) g;
  wf_mata : asym i = true -> forall x n g, In (x, n, g) (wmats_asym i d) -> holds_mat f x n (d_ns S d) g
}.
(** The rest of [i]: what is derived from the file.  The highest Nyquist mode numbers are taken
    from the last modes. *)
Record wsane (la : Z) (i : Inp S) (d : vdat S) : Prop := mkWsane {
  ws_la : asym i = negb (la =? 0);
  ws_mpolq : mpolq i = xmq i (mnmaxq i - 1);
  ws_ntorq : ntorq i = Z.quot (xnq i (mnmaxq i - 1)) (nfp i);
  ws_nz : nfp i <> 0;
  ws_quot : INT_MIN <= ntorq i <= INT_MAX;
  ws_some : 1 <= d_ns S d <= INT_MAX /\ 1 <= mnmax i <= INT_MAX /\ 1 <= mnmaxq i <= INT_MAX
}.
(** What read_wout needs. *)
Definition wneed (asy flux : bool) : list string :=
  ["lasym__logical__"; "ns"; "nfp"; "mpol"; "ntor"; "mnmax"; "mnmax_nyq"; "aspect"; "iotas"; "xm"; "xn"; "xm_nyq"; "xn_nyq";
   "rmnc"; "zmns"; "lmns"; "bmnc"; "bsubumnc"; "bsubvmnc"]%string ++
  (if asy then ["rmns"; "zmnc"; "lmnc"; "bmns"; "bsubumns"; "bsubvmns"]%string else []) ++
  (if flux then ["chi"; "phipf"; "pres"; "phi"]%string else []).
Definition wcomplete (f : file) (i : Inp S) (d : vdat S) : Prop :=
  forall x, In x (wneed (asym i) (d_flux S d)) -> present f x.

(** The object after the file has been read and before init_from_vmec. *)
Definition wread_ints : list ifield := [I_nfp; I_mpol; I_ntor; I_mnmax; I_mnmax_nyq; I_mpol_nyq; I_ntor_nyq].
Record staged (asp : F) (i : Inp S) (o om : obj) : Prop := mkStaged {
  sg_asym : oB om B_asym = Some (asym i);
  sg_nfp : oI om I_nfp = Some (nfp i);
  sg_mpol : oI om I_mpol = Some (mpol i);
  sg_ntor : oI om I_ntor = Some (ntor i);
  sg_mnmax : oI om I_mnmax = Some (mnmax i);
  sg_mpolq : oI om I_mpol_nyq = Some (mpolq i);
  sg_ntorq : oI om I_ntor_nyq = Some (ntorq i);
  sg_mnmaxq : oI om I_mnmax_nyq = Some (mnmaxq i);
  sg_aspect : oF om F_aspect = Some asp;
  sg_xm : vec_is (oN om N_xm) (mnmax i) (xm i);
  sg_xn : vec_is (oN om N_xn) (mnmax i) (xn i);
  sg_xmq : vec_is (oN om N_xm_nyq) (mnmaxq i) (xmq i);
  sg_xnq : vec_is (oN om N_xn_nyq) (mnmaxq i) (xnq i);
  sg_B : forall g, g <> B_asym -> oB om g = oB o g;
  sg_I : forall g, ~ In g wread_ints -> oI om g = oI o g;
  sg_F : forall g, g <> F_aspect -> oF om g = oF o g;
  sg_N : forall g, ~ In g [N_xm; N_xn; N_xm_nyq; N_xn_nyq] -> oN om g = oN o g;
  sg_A : forall g, oA om g = oA o g
}.

(** ** What write_boozmn writes *)
(** The object [o] holds the results that the contents [d] of a file describe.  [fl]: flux functions
    are present; [g]: the output matrices, [ph]: the member phip. *)
Record stored (o : obj) (d : bdat) (g : afield -> Z -> Z -> F) (fl : bool) (ph : Z -> F) : Prop := mkStored {
  st_asym : oB o B_asym = Some (b_asym d);
  st_lasym : b_lasym d = if b_asym d then 1 else 0;
  st_nfp : oI o I_nfp = Some (b_nfp d);
  st_mboz : oI o I_mboz = Some (b_mboz d);
  st_nboz : oI o I_nboz = Some (b_nboz d);
  st_mnboz : oI o I_mnboz = Some (b_mnboz d);
  st_ns_in : oI o I_ns_in = Some (b_radius d - 1);
  st_ns : b_ns d = b_radius d;
  st_ns_b : oI o I_ns_b = Some (b_nsurf d);
  st_xm : vec_is (oN o N_xm_b) (b_mnboz d) (b_xm d);
  st_xn : vec_is (oN o N_xn_b) (b_mnboz d) (b_xn d);
  st_surfs : exists c, vec_is (oN o N_compute_surfs) (b_nsurf d) c /\ forall j, 0 <= j < b_nsurf d -> b_jlist d j = c j + 2;
  st_zero : b_iota d 0 = toF 0 /\ b_G d 0 = toF 0 /\ b_I d 0 = toF 0;
  st_iota : vec_is (oA o A_iota) (b_radius d - 1) (fun j => b_iota d (j + 1));
  st_G : vec_is (oA o A_Boozer_G_all) (b_radius d - 1) (fun j => b_G d (j + 1));
  st_I : vec_is (oA o A_Boozer_I_all) (b_radius d - 1) (fun j => b_I d (j + 1));
  st_sym : forall x m, In (x, m) bvars_sym -> mat_is (oA o m) (b_mnboz d) (b_nsurf d) (g m);
  st_matA : b_asym d = true -> forall x m, In (x, m) bvars_asym -> mat_is (oA o m) (b_mnboz d) (b_nsurf d) (g m);
  st_file : forall m k b, b_mat d m k b = bsign m (g m k b);
  st_flux : fl = true ->
    vec_is (oA o A_phip) (b_radius d) ph /\ (forall j, b_phip d j = if j =? 0 then toF 0 else ph j) /\
    vec_is (oA o A_chi) (b_radius d) (b_chi d) /\ vec_is (oA o A_pres) (b_radius d) (b_pres d) /\
    vec_is (oA o A_phi) (b_radius d) (b_phi d);
  st_noflux : fl = false -> asize (oA o A_phip) = 0 /\
    forall j, b_phip d j = toF 0 /\ b_chi d j = toF 0 /\ b_pres d j = toF 0 /\ b_phi d j = toF 0
}.
(** The sizes fit a NetCDF classic file. *)
Record wfits (version : string) (d : bdat) : Prop := mkWfits {
  wz_mnboz : 1 <= b_mnboz d <= 2147483644;
  wz_radius : 1 <= b_radius d <= 2147483644;
  wz_nsurf : 1 <= b_nsurf d <= 2147483644;
  wz_jlist : forall j, 0 <= j < b_nsurf d -> INT_MIN + 2 <= b_jlist d j <= INT_MAX;
  wz_version : (String.length version < 2000)%nat
}.

(** The documented layout: dimensions, and variables with their dimensions and units. *)
Definition bdims (version : string) (d : bdat) : list (string * Z) :=
  [("radius", b_radius d); ("mn_mode", b_mnboz d); ("mn_modes", b_mnboz d);
   ("comput_surfs", b_nsurf d); ("pack_rad", b_nsurf d);
   (dim_str (22 + String.length version), Z.of_nat (22 + String.length version))]%string.
Definition blayout (version : string) (asy fl : bool) : list (string * list string * option string) :=
  [("version", [dim_str (22 + String.length version)], None);
   ("lasym__logical__", [], None);
   ("ns_b", [], Some "dimensionless"); ("nfp_b", [], Some "dimensionless"); ("mboz_b", [], Some "dimensionless");
   ("nboz_b", [], Some "dimensionless"); ("mnboz_b", [], Some "dimensionless"); ("aspect_b", [], Some "dimensionless");
   ("rmax_b", [], Some "dimensionless"); ("rmin_b", [], Some "dimensionless"); ("betaxis_b", [], Some "dimensionless");
   ("jlist", ["comput_surfs"], Some "dimensionless");
   ("ixm_b", ["mn_modes"], Some "dimensionless"); ("ixn_b", ["mn_modes"], Some "dimensionless");
   ("iota_b", ["radius"], Some "dimensionless"); ("buco_b", ["radius"], Some "Tesla * meter");
   ("bvco_b", ["radius"], Some "Tesla * meter"); ("beta_b", ["radius"], Some "dimensionless");
   ("phip_b", ["radius"], Some "Tesla * meter^2"); ("chi_b", ["radius"], Some "Tesla * meter^2");
   ("pres_b", ["radius"], Some (if fl then "Pascal" else "dimensionless")); ("phi_b", ["radius"], Some "Tesla * meter^2");
   ("bmnc_b", ["pack_rad"; "mn_modes"], Some "Tesla"); ("rmnc_b", ["pack_rad"; "mn_modes"], Some "meter");
   ("zmns_b", ["pack_rad"; "mn_modes"], Some "meter"); ("pmns_b", ["pack_rad"; "mn_modes"], Some "dimensionless");
   ("gmn_b", ["pack_rad"; "mn_modes"], Some "meter/Tesla")]%string ++
  (if asy then
     [("bmns_b", ["pack_rad"; "mn_modes"], Some "Tesla"); ("rmns_b", ["pack_rad"; "mn_modes"], Some "meter");
      ("zmnc_b", ["pack_rad"; "mn_modes"], Some "meter"); ("pmnc_b", ["pack_rad"; "mn_modes"], Some "dimensionless");
      ("gmns_b", ["pack_rad"; "mn_modes"], Some "meter/Tesla")]%string
   else []).
Record written (version : string) (o : obj) (d : bdat) (fl : bool) (f : file) : Prop := mkWritten {
  wt_dims : nf_dims f = bdims version d;
  wt_vars : map (fun v => (vr_name v, vr_dims v, lookup (vr_atts v) "units")) (nf_vars f) = blayout version (b_asym d) fl;
  wt_data : bfile f d;
  wt_all : bcomplete f d /\ present f "chi_b";
  wt_version : exists v, find_var f "version" = Some v /\ vr_val v = VChar ("C++/Python booz_xform " ++ version);
  wt_aspect : exists v, find_var f "aspect_b" = Some v /\ vr_val v = VDbl [oF o F_aspect];
  wt_zeros : forall x, In x ["rmax_b"; "rmin_b"; "betaxis_b"]%string ->
    exists v, find_var f x = Some v /\ vr_val v = VDbl [Some (toF 0)];
  wt_beta : exists v l, find_var f "beta_b" = Some v /\ vr_val v = VDbl l /\ Z.of_nat (List.length l) = b_radius d /\
    Forall (fun c => c = if fl then None else Some (toF 0)) l
}.
(** The effect on the object: phip[0] = 0 if there are flux functions. *)
Record same_but_phip0 (fl : bool) (o o' : obj) : Prop := mkSbp {
  sp_B : forall g, oB o' g = oB o g; sp_I : forall g, oI o' g = oI o g; sp_F : forall g, oF o' g = oF o g;
  sp_N : forall g, oN o' g = oN o g; sp_A : forall g, g <> A_phip -> oA o' g = oA o g;
  sp_phip : if fl then oA o' A_phip = aput (oA o A_phip) 0 (toF 0) else oA o' A_phip = oA o A_phip
}.

(** ** Open files *)
(** The numbers of open files are smaller than the next one: true initially (nothing open) and
    kept by every operation. *)
Definition wf_world (w : world) : Prop := wf_obj (wO w) /\ Forall (fun p => fst p < wNext w) (wOpen w).
(** No library call fails. *)
Definition lucky (w : world) : Prop := wQ w = [].

End NcSpec.

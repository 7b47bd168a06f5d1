(** The memory that arrays obtained from attributes refer to, for all calls (see PyView).

    [read_wout] and [read_boozmn] are written once more, step by step, so that the order of their
    assignments is known; [read_wout_steps] and [read_boozmn_steps] in PyMemProof say that these
    are the functions of NcModel. *)
From Coq Require Import ZArith List String Bool.
From Verif Require Import Scalar Prog Model Vmec Nc NcModel FuncExt Py PyView.
Import ListNotations.
Local Open Scope Z_scope.

Section Mem.
Variable S : Scalar.
Notation prog := (prog S).
Notation io := (io S).
Notation world := (world S).
Notation arr := (arr S).
Local Notation toF := (fofZ S).

(** Steps: a program on the object, or a function that does not change the number of elements of
    any member and assigns them in place ([DLib]: the functions of the NetCDF reader, printing). *)
Inductive steps : Type -> Type :=
| DBind A B (p : steps A) (k : A -> steps B) : steps B
| DLift A (p : prog A) : steps A
| DLib A (p : io A) : steps A.
Arguments DBind {A B}. Arguments DLift {A}. Arguments DLib {A}.
Fixpoint perform {A} (d : steps A) : io A :=
  match d with
  | DBind p k => ibind (perform p) (fun a => perform (k a))
  | DLift p => lift p
  | DLib p => p
  end.
(** What the steps do to the memory, also if one of them throws *)
Fixpoint track_all {A} (d : steps A) (w : world) (b : store) : store :=
  match d with
  | DBind p k =>
      match perform p w with
      | IOk a w' => track_all (k a) w' (track_all p w b)
      | _ => track_all p w b
      end
  | DLift p => track p (wO w) b
  | DLib _ => b
  end.
Notation "x <-- p ;; q" := (DBind p (fun x => q)) (at level 61, p at next level, right associativity).
Notation "p ;;- q" := (DBind p (fun _ => q)) (at level 61, right associativity).

Definition d_ints (f : nfield) (n : Z) : steps unit :=
  o <-- DLib (theobj S) ;; a <-- DLift (resize (oN o f) n 1) ;; DLift (setn f a).
Definition d_arr (f : afield) (r c : Z) : steps unit := DLift (resize_member S f r c).
Definition d_say (p : prog unit) : steps unit := DLift (bind (geti I_verbose) (fun v => if 0 <? v then p else Ret tt)).
Definition d_vec (n : Z) : steps arr := DLift (resize empty_vec n 1).
Definition d_mat (r c : Z) : steps arr := DLift (resize empty_mat r c).
Definition d_get_mat (h : Z) (x : string) (r c : Z) : steps arr := a <-- d_mat r c ;; DLib (get_local S h x a).
Definition d_get_vec (h : Z) (x : string) (n : Z) : steps arr := a <-- d_vec n ;; DLib (get_local S h x a).
(** [x = -x] *)
Definition d_neg (f : afield) : steps unit := p <-- DLift (bind (getarr f) (neg_arr S)) ;; DLift (setarr f p).

Definition d_read_wout (filename : string) (flux : bool) : steps unit :=
  d_say (out ("About to try reading VMEC wout file " ++ filename) [] []) ;;-
  h <-- DLib (reader S filename) ;;
  a <-- DLib (get_local_int S h "lasym__logical__") ;; a <-- DLib (val S a) ;;
  DLift (setb B_asym (negb (a =? 0))) ;;-
  ns <-- DLib (get_local_int S h "ns") ;;
  DLib (get_int S h "nfp" I_nfp) ;;-
  DLib (get_int S h "mpol" I_mpol) ;;-
  DLib (get_int S h "ntor" I_ntor) ;;-
  DLib (get_int S h "mnmax" I_mnmax) ;;-
  DLib (get_int S h "mnmax_nyq" I_mnmax_nyq) ;;-
  DLib (get_flt S h "aspect" F_aspect) ;;-
  ns <-- DLib (val S ns) ;;
  fl <-- (if flux then
            chi0 <-- d_get_vec h "chi" ns ;;
            phip0 <-- d_get_vec h "phipf" ns ;;
            pres0 <-- d_get_vec h "pres" ns ;;
            phi0 <-- d_get_vec h "phi" ns ;;
            DLib (iret (phip0, chi0, pres0, phi0))
          else DLib (iret (empty_vec, empty_vec, empty_vec, empty_vec))) ;;
  iotas <-- d_get_vec h "iotas" ns ;;
  mnmax <-- DLift (geti I_mnmax) ;;
  d_ints N_xm mnmax ;;-
  d_ints N_xn mnmax ;;-
  DLib (get_ints S h "xm" N_xm) ;;-
  DLib (get_ints S h "xn" N_xn) ;;-
  mnmax_nyq <-- DLift (geti I_mnmax_nyq) ;;
  d_ints N_xm_nyq mnmax_nyq ;;-
  d_ints N_xn_nyq mnmax_nyq ;;-
  DLib (get_ints S h "xm_nyq" N_xm_nyq) ;;-
  DLib (get_ints S h "xn_nyq" N_xn_nyq) ;;-
  l <-- DLift (isub mnmax_nyq 1) ;;
  m <-- DLift (getn N_xm_nyq l) ;; DLift (seti I_mpol_nyq m) ;;-
  n <-- DLift (getn N_xn_nyq l) ;; nfp <-- DLift (geti I_nfp) ;;
  q <-- DLift (idiv n nfp) ;; DLift (seti I_ntor_nyq q) ;;-
  rmnc0 <-- d_get_mat h "rmnc" mnmax ns ;;
  zmns0 <-- d_get_mat h "zmns" mnmax ns ;;
  lmns0 <-- d_get_mat h "lmns" mnmax ns ;;
  bmnc0 <-- d_get_mat h "bmnc" mnmax_nyq ns ;;
  bsubumnc0 <-- d_get_mat h "bsubumnc" mnmax_nyq ns ;;
  bsubvmnc0 <-- d_get_mat h "bsubvmnc" mnmax_nyq ns ;;
  asym <-- DLift (getb B_asym) ;;
  am <-- (if asym then
            rmns0 <-- d_get_mat h "rmns" mnmax ns ;;
            zmnc0 <-- d_get_mat h "zmnc" mnmax ns ;;
            lmnc0 <-- d_get_mat h "lmnc" mnmax ns ;;
            bmns0 <-- d_get_mat h "bmns" mnmax_nyq ns ;;
            bsubumns0 <-- d_get_mat h "bsubumns" mnmax_nyq ns ;;
            bsubvmns0 <-- d_get_mat h "bsubvmns" mnmax_nyq ns ;;
            DLib (iret (rmns0, zmnc0, lmnc0, (bmns0, bsubumns0, bsubvmns0)))
          else DLib (iret (empty_mat, empty_mat, empty_mat, (empty_mat, empty_mat, empty_mat)))) ;;
  DLib (rclose S h) ;;-
  let '(phip0, chi0, pres0, phi0) := fl in
  let '(rmns0, zmnc0, lmnc0, (bmns0, bsubumns0, bsubvmns0)) := am in
  DLift (init_from_vmec S
    (mkVargs S ns iotas rmnc0 rmns0 zmnc0 zmns0 lmnc0 lmns0 bmnc0 bmns0
       bsubumnc0 bsubumns0 bsubvmnc0 bsubvmns0 phip0 chi0 pres0 phi0)).

Definition d_read_boozmn (filename : string) : steps unit :=
  d_say (out ("About to try reading boozmn netcdf file " ++ filename) [] []) ;;-
  h <-- DLib (reader S filename) ;;
  a <-- DLib (get_local_int S h "lasym__logical__") ;; a <-- DLib (val S a) ;;
  DLift (setb B_asym (negb (a =? 0))) ;;-
  DLib (get_int S h "nfp_b" I_nfp) ;;-
  DLib (get_int S h "mboz_b" I_mboz) ;;-
  DLib (get_int S h "nboz_b" I_nboz) ;;-
  DLib (get_int S h "mnboz_b" I_mnboz) ;;-
  mnboz <-- DLift (geti I_mnboz) ;;
  d_ints N_xm_b mnboz ;;-
  d_ints N_xn_b mnboz ;;-
  DLib (get_ints S h "ixm_b" N_xm_b) ;;-
  DLib (get_ints S h "ixn_b" N_xn_b) ;;-
  radius <-- DLib (getdim S h "radius") ;; radius <-- DLift (int_ radius) ;;
  iota_in <-- d_vec radius ;;
  G_in <-- d_vec radius ;;
  I_in <-- d_vec radius ;;
  ns_in <-- DLift (isub radius 1) ;; DLift (seti I_ns_in ns_in) ;;-
  d_arr A_iota ns_in 1 ;;-
  d_arr A_Boozer_G_all ns_in 1 ;;-
  d_arr A_Boozer_I_all ns_in 1 ;;-
  n <-- DLift (iadd ns_in 1) ;;
  d_arr A_phi n 1 ;;-
  d_arr A_phip n 1 ;;-
  d_arr A_chi n 1 ;;-
  d_arr A_pres n 1 ;;-
  iota_in <-- DLib (get_local S h "iota_b" iota_in) ;;
  G_in <-- DLib (get_local S h "bvco_b" G_in) ;;
  I_in <-- DLib (get_local S h "buco_b" I_in) ;;
  DLib (get_arr S h "phi_b" A_phi) ;;-
  DLib (get_arr S h "phip_b" A_phip) ;;-
  DLib (itry (get_arr S h "chi_b" A_chi)) ;;-
  DLib (get_arr S h "pres_b" A_pres) ;;-
  DLift (fill_vec S A_iota ns_in (fun j => vget iota_in (j + 1))) ;;-
  DLift (fill_vec S A_Boozer_G_all ns_in (fun j => vget G_in (j + 1))) ;;-
  DLift (fill_vec S A_Boozer_I_all ns_in (fun j => vget I_in (j + 1))) ;;-
  x <-- DLift (getv A_phi ns_in) ;; DLift (setf F_toroidal_flux x) ;;-
  ns_b <-- DLib (getdim S h "comput_surfs") ;; ns_b <-- DLift (int_ ns_b) ;;
  DLift (seti I_ns_b ns_b) ;;-
  d_say (bind (geti I_mboz) (fun mb => bind (geti I_nboz) (fun nb =>
    out "Read mboz, nboz, mnboz, ns_b" [mb; nb; mnboz; ns_b] []))) ;;-
  d_ints N_compute_surfs ns_b ;;-
  DLib (get_ints S h "jlist" N_compute_surfs) ;;-
  (o <-- DLib (theobj S) ;;
   cs <-- DLift (for_ 0 ns_b (oN o N_compute_surfs) (fun j a =>
            bind (vget a j) (fun x => bind (isub x 2) (fun y => vset a j y)))) ;;
   DLift (setn N_compute_surfs cs)) ;;-
  d_say (bind (elems_n S N_compute_surfs) (fun l => out "Read compute_surfs" l [])) ;;-
  d_arr A_bmnc_b mnboz ns_b ;;-
  d_arr A_rmnc_b mnboz ns_b ;;-
  d_arr A_zmns_b mnboz ns_b ;;-
  d_arr A_numns_b mnboz ns_b ;;-
  d_arr A_gmnc_b mnboz ns_b ;;-
  DLib (get_arr S h "bmnc_b" A_bmnc_b) ;;-
  DLib (get_arr S h "rmnc_b" A_rmnc_b) ;;-
  DLib (get_arr S h "zmns_b" A_zmns_b) ;;-
  DLib (get_arr S h "pmns_b" A_numns_b) ;;-
  d_neg A_numns_b ;;-
  DLib (get_arr S h "gmn_b" A_gmnc_b) ;;-
  asym <-- DLift (getb B_asym) ;;
  (if asym then
     d_arr A_bmns_b mnboz ns_b ;;-
     d_arr A_rmns_b mnboz ns_b ;;-
     d_arr A_zmnc_b mnboz ns_b ;;-
     d_arr A_numnc_b mnboz ns_b ;;-
     d_arr A_gmns_b mnboz ns_b ;;-
     DLib (get_arr S h "bmns_b" A_bmns_b) ;;-
     DLib (get_arr S h "rmns_b" A_rmns_b) ;;-
     DLib (get_arr S h "zmnc_b" A_zmnc_b) ;;-
     DLib (get_arr S h "pmnc_b" A_numnc_b) ;;-
     d_neg A_numnc_b ;;-
     DLib (get_arr S h "gmns_b" A_gmns_b)
   else
     d_arr A_bmns_b 0 0 ;;-
     d_arr A_rmns_b 0 0 ;;-
     d_arr A_zmnc_b 0 0 ;;-
     d_arr A_numnc_b 0 0 ;;-
     d_arr A_gmns_b 0 0) ;;-
  ns_vmec <-- DLib (get_local_int S h "ns_b") ;; ns_vmec <-- DLib (val S ns_vmec) ;;
  d_arr A_s_b ns_b 1 ;;-
  DLift (fill_vec S A_s_b ns_b (fun j => bind (getn N_compute_surfs j) (fun c =>
    Ret (f1 S / (toF ns_vmec - f1 S) * (toF c + flit S (QArith_base.Qmake 1 2)))%sc))) ;;-
  d_say (bind (bind (getarr A_s_b) (elems S)) (fun l => out "s_b" [] l)) ;;-
  DLib (rclose S h).

Variable version : string.
(** [New] makes another object; the arrays obtained from the old one are not concerned.
    write_boozmn (NcModel) assigns no member, only the element phip[0] (C38). *)
Definition exec_steps (c : call S) : steps unit :=
  match c with
  | PutInt f v => if rw_int f then (if in_int v then DLift (seti f v) else DLib (type_error S)) else DLib (no_setter S)
  | PutBool f v => if rw_bool f then DLift (setb f v) else DLib (no_setter S)
  | PutFlt f v => if rw_flt f then DLift (setf f v) else DLib (no_setter S)
  | PutInts f n g => if rw_ints f then DLift (setn f (tab (Z.of_nat n) g)) else DLib (no_setter S)
  | PutArr f r c g =>
      if rw_arr f then
        if is_vector f && negb (c =? 1)%nat then DLib (type_error S)
        else DLift (setarr f (tabm (Z.of_nat r) (Z.of_nat c) g))
      else DLib (no_setter S)
  | ReadWout x fl => d_read_wout x fl
  | InitFromVmec v => DLift (init_from_vmec S v)
  | Run => DLift (bx_run S)
  | ReadBoozmn x => d_read_boozmn x
  | c => DLib (exec version c)
  end.

(** Calls one after the other; each returns or throws an exception that the program catches.
    [os] are the objects after each of them. *)
Inductive session : list (call S) -> list (obj S) -> world -> store -> world -> store -> Prop :=
| se_nil w b : session [] [] w b w b
| se_cons c l os w b w1 w2 b2 : c <> @New S ->
    (exec version c w = IOk tt w1 \/ exists m, exec version c w = IThrow m w1) ->
    session l os w1 (track_all (exec_steps c) w b) w2 b2 -> session (c :: l) (wO w1 :: os) w b w2 b2.
End Mem.
Arguments DBind {S A B}. Arguments DLift {S A}. Arguments DLib {S A}. Arguments perform {S A}. Arguments track_all {S A}. Arguments session {S}.

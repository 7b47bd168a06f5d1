(** netcdf_reader.cpp, netcdf_writer.cpp, read_wout.cpp, read_boozmn.cpp, write_boozmn.cpp. *)
From Coq Require Import ZArith QArith List String Ascii Bool DecimalString Decimal.
From Verif Require Import Scalar Prog Vmec Nc.
Import ListNotations.
Local Open Scope Z_scope.
Local Open Scope io_scope.

Section NcModel.
Variable S : Scalar.
Notation obj := (obj S).
Notation prog := (prog S).
Notation world := (world S).
Notation io := (io S).
Notation arr := (arr S).
Notation F := (F S).
Local Notation toF := (fofZ S).

(** ** The object, from programs with input and output *)
Definition theobj : io obj := fun w => IOk (wO w) w.
Definition setobj (o : obj) : io unit := fun w => IOk tt (setO w o).

(** ** netcdf_reader.cpp *)

(** ERR, lines 18-22 *)
Definition rerr {A} (details msg : string) : io A :=
  say ("NetCDF Error! " ++ msg ++ " [" ++ details ++ "]") [] [] ;;; ithrow msg.
Definition rchk {A} (details : string) (c : code A) : io A :=
  match c with Good a => iret a | Err m => rerr details m end.

(** The constructor, lines 9-16 *)
Definition reader (filename : string) : io Z :=
  c <- nc_open filename ;; h <- rchk filename c ;;
  c <- nc_inq h ;; rchk filename c ;;; iret h.
(** getdim, lines 24-32 *)
Definition getdim (h : Z) (x : string) : io Z :=
  c <- nc_inq_dimid h x ;; rchk x c ;;;
  c <- nc_inq_dimlen h x ;; rchk x c.
(** The get functions, lines 34-81.  [buf] is the storage of the variable read into; [store]
    says what its new contents mean for the caller, also if an error is reported after the
    transfer. *)
Definition rget {T} (conv : ncval S -> option (list (option T) * bool)) (h : Z) (x : string)
    (buf : list (option T)) (store : list (option T) -> io unit) : io (list (option T)) :=
  c <- nc_inq_varid h x ;; rchk x c ;;;
  (if (List.length buf =? 0)%nat then iub "element 0 of an empty array" else iret tt) ;;;
  c <- nc_get conv h x buf ;; '(e, l) <- rchk x c ;;
  store l ;;;
  match e with Some m => rerr x m | None => iret l end.
Definition drop {T} : T -> io unit := fun _ => iret tt.
(** A scalar, vector or matrix member *)
Definition get_int (h : Z) (x : string) (f : ifield) : io unit :=
  o <- theobj ;;
  rget to_int h x [oI o f] (fun l => o <- theobj ;; setobj (updI o f (match l with c :: _ => c | [] => None end))) ;;;
  iret tt.
Definition get_flt (h : Z) (x : string) (f : ffield) : io unit :=
  o <- theobj ;;
  rget to_dbl h x [oF o f] (fun l => o <- theobj ;; setobj (updF o f (match l with c :: _ => c | [] => None end))) ;;;
  iret tt.
Definition get_ints (h : Z) (x : string) (f : nfield) : io unit :=
  o <- theobj ;;
  rget to_int h x (adata (oN o f))
    (fun l => o <- theobj ;; setobj (updN o f (mkArr (arows (oN o f)) (acols (oN o f)) l))) ;;;
  iret tt.
Definition get_arr (h : Z) (x : string) (f : afield) : io unit :=
  o <- theobj ;;
  rget to_dbl h x (adata (oA o f))
    (fun l => o <- theobj ;; setobj (updA o f (mkArr (arows (oA o f)) (acols (oA o f)) l))) ;;;
  iret tt.
(** A local variable, uninitialised before *)
Definition get_local_int (h : Z) (x : string) : io (option Z) :=
  l <- rget to_int h x [None] drop ;; iret (match l with c :: _ => c | [] => None end).
Definition get_local (h : Z) (x : string) (a : arr) : io arr :=
  l <- rget to_dbl h x (adata a) drop ;; iret (mkArr (arows a) (acols a) l).
(** Use of a local int *)
Definition val {T} (x : option T) : io T :=
  match x with Some v => iret v | None => iub "indeterminate local variable" end.
(** close, lines 83-86 *)
Definition rclose (h : Z) : io unit :=
  c <- nc_close h ;; rchk "close()" c.

(** resize of an IntVector member *)
Definition resize_ints (f : nfield) (n : Z) : io unit :=
  o <- theobj ;; a <- lift (resize (oN o f) n 1) ;; lift (setn f a).
(** resize of a Vector or Matrix member *)
Definition resize_arr (f : afield) (r c : Z) : io unit := lift (resize_member S f r c).
(** A local Vector(n) or Matrix(r,c), or a resized local *)
Definition new_vec (n : Z) : io arr := lift (resize empty_vec n 1).
Definition new_mat (r c : Z) : io arr := lift (resize empty_mat r c).
(** [std::cout << ...] if verbose > 0 *)
Definition chatter (p : prog unit) : io unit :=
  lift (bind (geti I_verbose) (fun v => if 0 <? v then p else Ret tt)).
(** The unary minus on a whole array *)
Definition neg_arr (a : arr) : prog arr :=
  bind (for_ 0 (asize a) (mkArr (arows a) (acols a) (zrepeat None (asize a)))
          (fun j b => bind (vget a j) (fun x => vset b j (fneg S x)))) Ret.

(** ** read_wout.cpp *)

(** Lines 64-72 and 75-83, 86-100: declare and read; where the code declares or resizes three
    matrices and then reads them, here each is read right after its declaration (they are
    locals). *)
Definition get_mat (h : Z) (x : string) (r c : Z) : io arr :=
  a <- new_mat r c ;; get_local h x a.
Definition get_vec (h : Z) (x : string) (n : Z) : io arr :=
  a <- new_vec n ;; get_local h x a.

Definition read_wout (filename : string) (flux : bool) : io unit :=
  chatter (out ("About to try reading VMEC wout file " ++ filename) [] []) ;;;   (* 13 *)
  h <- reader filename ;;                                                        (* 14 *)
  a <- get_local_int h "lasym__logical__" ;; a <- val a ;;                       (* 16-18 *)
  lift (setb B_asym (negb (a =? 0))) ;;;
  ns <- get_local_int h "ns" ;;                                                  (* 20-21 *)
  get_int h "nfp" I_nfp ;;;                                                      (* 23-28 *)
  get_int h "mpol" I_mpol ;;;
  get_int h "ntor" I_ntor ;;;
  get_int h "mnmax" I_mnmax ;;;
  get_int h "mnmax_nyq" I_mnmax_nyq ;;;
  get_flt h "aspect" F_aspect ;;;
  ns <- val ns ;;
  '(phip0, chi0, pres0, phi0) <-                                                 (* 30-43 *)
    (if flux then
       chi0 <- get_vec h "chi" ns ;;
       phip0 <- get_vec h "phipf" ns ;;
       pres0 <- get_vec h "pres" ns ;;
       phi0 <- get_vec h "phi" ns ;;
       iret (phip0, chi0, pres0, phi0)
     else iret (empty_vec, empty_vec, empty_vec, empty_vec)) ;;
  iotas <- get_vec h "iotas" ns ;;                                               (* 45-48 *)
  mnmax <- lift (geti I_mnmax) ;;                                                (* 50-53 *)
  resize_ints N_xm mnmax ;;;
  resize_ints N_xn mnmax ;;;
  get_ints h "xm" N_xm ;;;
  get_ints h "xn" N_xn ;;;
  mnmax_nyq <- lift (geti I_mnmax_nyq) ;;                                        (* 55-58 *)
  resize_ints N_xm_nyq mnmax_nyq ;;;
  resize_ints N_xn_nyq mnmax_nyq ;;;
  get_ints h "xm_nyq" N_xm_nyq ;;;
  get_ints h "xn_nyq" N_xn_nyq ;;;
  l <- lift (isub mnmax_nyq 1) ;;                                                (* 60-61 *)
  m <- lift (getn N_xm_nyq l) ;; lift (seti I_mpol_nyq m) ;;;
  n <- lift (getn N_xn_nyq l) ;; nfp <- lift (geti I_nfp) ;;
  q <- lift (idiv n nfp) ;; lift (seti I_ntor_nyq q) ;;;
  rmnc0 <- get_mat h "rmnc" mnmax ns ;;                                          (* 64-72 *)
  zmns0 <- get_mat h "zmns" mnmax ns ;;
  lmns0 <- get_mat h "lmns" mnmax ns ;;
  bmnc0 <- get_mat h "bmnc" mnmax_nyq ns ;;                                      (* 75-83 *)
  bsubumnc0 <- get_mat h "bsubumnc" mnmax_nyq ns ;;
  bsubvmnc0 <- get_mat h "bsubvmnc" mnmax_nyq ns ;;
  asym <- lift (getb B_asym) ;;
  '(rmns0, zmnc0, lmnc0, (bmns0, bsubumns0, bsubvmns0)) <-                       (* 67-69, 78-80, 85-101 *)
    (if asym then
       rmns0 <- get_mat h "rmns" mnmax ns ;;
       zmnc0 <- get_mat h "zmnc" mnmax ns ;;
       lmnc0 <- get_mat h "lmnc" mnmax ns ;;
       bmns0 <- get_mat h "bmns" mnmax_nyq ns ;;
       bsubumns0 <- get_mat h "bsubumns" mnmax_nyq ns ;;
       bsubvmns0 <- get_mat h "bsubvmns" mnmax_nyq ns ;;
       iret (rmns0, zmnc0, lmnc0, (bmns0, bsubumns0, bsubvmns0))
     else iret (empty_mat, empty_mat, empty_mat, (empty_mat, empty_mat, empty_mat))) ;;
  rclose h ;;;                                                                   (* 103 *)
  (* 105-113; without the fluxes the last four arguments have their default
     value, an empty Vector (booz_xform.hpp:14-15, 450-453) *)
  lift (init_from_vmec S
    (mkVargs S ns iotas rmnc0 rmns0 zmnc0 zmns0 lmnc0 lmns0 bmnc0 bmns0
       bsubumnc0 bsubumns0 bsubvmnc0 bsubvmns0 phip0 chi0 pres0 phi0)).

(** ** read_boozmn.cpp *)
Definition read_boozmn (filename : string) : io unit :=
  chatter (out ("About to try reading boozmn netcdf file " ++ filename) [] []) ;;;  (* 14 *)
  h <- reader filename ;;                                                        (* 15 *)
  a <- get_local_int h "lasym__logical__" ;; a <- val a ;;                       (* 17-19 *)
  lift (setb B_asym (negb (a =? 0))) ;;;
  get_int h "nfp_b" I_nfp ;;;                                                    (* 21-25 *)
  get_int h "mboz_b" I_mboz ;;;
  get_int h "nboz_b" I_nboz ;;;
  get_int h "mnboz_b" I_mnboz ;;;
  mnboz <- lift (geti I_mnboz) ;;                                                (* 27-30 *)
  resize_ints N_xm_b mnboz ;;;
  resize_ints N_xn_b mnboz ;;;
  get_ints h "ixm_b" N_xm_b ;;;
  get_ints h "ixn_b" N_xn_b ;;;
  radius <- getdim h "radius" ;; radius <- lift (int_ radius) ;;                 (* 32-44 *)
  iota_in <- new_vec radius ;;
  G_in <- new_vec radius ;;
  I_in <- new_vec radius ;;
  ns_in <- lift (isub radius 1) ;; lift (seti I_ns_in ns_in) ;;;
  resize_arr A_iota ns_in 1 ;;;
  resize_arr A_Boozer_G_all ns_in 1 ;;;
  resize_arr A_Boozer_I_all ns_in 1 ;;;
  n <- lift (iadd ns_in 1) ;;
  resize_arr A_phi n 1 ;;;
  resize_arr A_phip n 1 ;;;
  resize_arr A_chi n 1 ;;;
  resize_arr A_pres n 1 ;;;
  iota_in <- get_local h "iota_b" iota_in ;;                                     (* 45-54 *)
  G_in <- get_local h "bvco_b" G_in ;;
  I_in <- get_local h "buco_b" I_in ;;
  get_arr h "phi_b" A_phi ;;;
  get_arr h "phip_b" A_phip ;;;
  itry (get_arr h "chi_b" A_chi) ;;;
  get_arr h "pres_b" A_pres ;;;
  lift (fill_vec S A_iota ns_in (fun j => vget iota_in (j + 1))) ;;;             (* 55-59 *)
  lift (fill_vec S A_Boozer_G_all ns_in (fun j => vget G_in (j + 1))) ;;;
  lift (fill_vec S A_Boozer_I_all ns_in (fun j => vget I_in (j + 1))) ;;;
  x <- lift (getv A_phi ns_in) ;; lift (setf F_toroidal_flux x) ;;;              (* 61 *)
  ns_b <- getdim h "comput_surfs" ;; ns_b <- lift (int_ ns_b) ;;                 (* 63 *)
  lift (seti I_ns_b ns_b) ;;;
  chatter (bind (geti I_mboz) (fun mb => bind (geti I_nboz) (fun nb =>           (* 64-65 *)
    out "Read mboz, nboz, mnboz, ns_b" [mb; nb; mnboz; ns_b] []))) ;;;
  resize_ints N_compute_surfs ns_b ;;;                                           (* 67-72 *)
  get_ints h "jlist" N_compute_surfs ;;;
  o <- theobj ;;
  cs <- lift (for_ 0 ns_b (oN o N_compute_surfs) (fun j a =>
          bind (vget a j) (fun x => bind (isub x 2) (fun y => vset a j y)))) ;;
  lift (setn N_compute_surfs cs) ;;;
  chatter (bind (elems_n S N_compute_surfs) (fun l => out "Read compute_surfs" l [])) ;;;
  resize_arr A_bmnc_b mnboz ns_b ;;;                                             (* 74-84 *)
  resize_arr A_rmnc_b mnboz ns_b ;;;
  resize_arr A_zmns_b mnboz ns_b ;;;
  resize_arr A_numns_b mnboz ns_b ;;;
  resize_arr A_gmnc_b mnboz ns_b ;;;
  get_arr h "bmnc_b" A_bmnc_b ;;;
  get_arr h "rmnc_b" A_rmnc_b ;;;
  get_arr h "zmns_b" A_zmns_b ;;;
  get_arr h "pmns_b" A_numns_b ;;;
  p <- lift (bind (getarr A_numns_b) neg_arr) ;; lift (setarr A_numns_b p) ;;;
  get_arr h "gmn_b" A_gmnc_b ;;;
  asym <- lift (getb B_asym) ;;
  (if asym then                                                                  (* 86-97 *)
     resize_arr A_bmns_b mnboz ns_b ;;;
     resize_arr A_rmns_b mnboz ns_b ;;;
     resize_arr A_zmnc_b mnboz ns_b ;;;
     resize_arr A_numnc_b mnboz ns_b ;;;
     resize_arr A_gmns_b mnboz ns_b ;;;
     get_arr h "bmns_b" A_bmns_b ;;;
     get_arr h "rmns_b" A_rmns_b ;;;
     get_arr h "zmnc_b" A_zmnc_b ;;;
     get_arr h "pmnc_b" A_numnc_b ;;;
     p <- lift (bind (getarr A_numnc_b) neg_arr) ;; lift (setarr A_numnc_b p) ;;;
     get_arr h "gmns_b" A_gmns_b
   else                                                                          (* 99-107 *)
     resize_arr A_bmns_b 0 0 ;;;
     resize_arr A_rmns_b 0 0 ;;;
     resize_arr A_zmnc_b 0 0 ;;;
     resize_arr A_numnc_b 0 0 ;;;
     resize_arr A_gmns_b 0 0) ;;;
  ns_vmec <- get_local_int h "ns_b" ;; ns_vmec <- val ns_vmec ;;                 (* 110-114 *)
  resize_arr A_s_b ns_b 1 ;;;
  lift (fill_vec S A_s_b ns_b (fun j => bind (getn N_compute_surfs j) (fun c =>
    Ret (f1 S / (toF ns_vmec - f1 S) * (toF c + flit S (1 # 2)))%sc))) ;;;
  chatter (bind (bind (getarr A_s_b) (elems S)) (fun l => out "s_b" [] l)) ;;;   (* 115 *)
  rclose h.                                                                      (* 117 *)

(** ** netcdf_writer.cpp

    The writer stores the address of each variable and reads from it in write_and_close.  An
    address is a member of the object or a local variable of the caller, together with the
    number of elements it had when the address was taken: reallocation makes it dangle. *)
Inductive ptr : Type :=
| MemI (f : ifield) | MemF (f : ffield) | MemN (f : nfield) (n : Z) | MemA (f : afield) (n : Z)
| LocI (x : string) | LocF (x : string) | LocN (x : string) (n : Z) | LocA (x : string) (n : Z)
| LocS (x : string) (n : Z).
(** The local variables alive when write_and_close is called, and their values *)
Inductive lval : Type :=
| LI (v : Z) | LF (v : F) | LN (v : narr) | LA (v : arr) | LS (v : string).
Definition block {T} (a : array T) (sz n : Z) : option (list (option T)) :=
  if (asize a =? sz) && (n <=? sz) then Some (firstn (Z.to_nat n) (adata a)) else None.
Definition deref (env : list (string * lval)) (p : ptr) (w : world) (n : Z) : option (ncval S) :=
  match p with
  | MemI f => if n =? 1 then Some (VInt [oI (wO w) f]) else None
  | MemF f => if n =? 1 then Some (VDbl [oF (wO w) f]) else None
  | MemN f sz => option_map VInt (block (oN (wO w) f) sz n)
  | MemA f sz => option_map VDbl (block (oA (wO w) f) sz n)
  | LocI x => match lookup env x with Some (LI v) => if n =? 1 then Some (VInt [Some v]) else None | _ => None end
  | LocF x => match lookup env x with Some (LF v) => if n =? 1 then Some (VDbl [Some v]) else None | _ => None end
  | LocN x sz => match lookup env x with Some (LN a) => option_map VInt (block a sz n) | _ => None end
  | LocA x sz => match lookup env x with Some (LA a) => option_map VDbl (block a sz n) | _ => None end
  | LocS x sz => match lookup env x with
                 | Some (LS s) => if (Z.of_nat (String.length s) =? sz) && (n <=? sz)
                                  then Some (VChar (substring 0 (Z.to_nat n) s)) else None
                 | _ => None end
  end.
(** A writer object: the id of the file, and the variables registered so far *)
Record writer : Type := mkWr { wr_id : Z; wr_regs : list (string * ptr) }.

(** ERR, lines 24-26 *)
Definition wchk {A} (c : code A) : io A :=
  match c with Good a => iret a | Err m => ithrow m end.
(** The constructor, lines 16-22 *)
Definition new_writer (filename : string) : io writer :=
  c <- nc_create filename ;; h <- wchk c ;; iret (mkWr h []).
(** dim, lines 28-33 *)
Definition wdim (nc : writer) (x : string) (n : Z) : io unit :=
  c <- nc_def_dim (wr_id nc) x n ;; wchk c.
(** add_attribute, lines 38-50 *)
Definition add_attribute (nc : writer) (x str units : string) : io unit :=
  (if (0 <? String.length str)%nat then c <- nc_put_att_text (wr_id nc) x "description" str ;; wchk c else iret tt) ;;;
  (if (0 <? String.length units)%nat then c <- nc_put_att_text (wr_id nc) x "units" units ;; wchk c else iret tt).
(** The put functions: lines 52-72 (scalars), 103-123 (vectors), 125-140 (matrices; [ds] is
    already in the reversed order).  [ty] is the NetCDF type. *)
Definition put (nc : writer) (ds : list string) (x : string) (ty : ncval S) (p : ptr) (att units : string) : io writer :=
  c <- nc_def_var (wr_id nc) x ds ty ;; wchk c ;;;
  (match p with
   | MemN _ 0 | MemA _ 0 | LocN _ 0 | LocA _ 0 => iub "element 0 of an empty array"
   | _ => iret tt
   end) ;;;
  add_attribute nc x att units ;;;
  iret (mkWr (wr_id nc) (wr_regs nc ++ [(x, p)])).
Definition INT : ncval S := VInt [].
Definition DBL : ncval S := VDbl [].
(** "dim_" and the length with at least five digits *)
Definition dim_str (len : nat) : string :=
  let d := NilZero.string_of_uint (Nat.to_uint len) in
  "dim_" ++ (substring 0 (5 - String.length d) "00000") ++ d.
(** put for strings, lines 74-101 *)
Definition put_string (nc : writer) (x name s : string) (att : string) : io writer :=
  let len := String.length s in
  let d := dim_str len in
  c <- nc_inq_dimid (wr_id nc) d ;;
  (match c with
   | Good _ => iret tt
   | Err _ => c <- nc_def_dim (wr_id nc) d (Z.of_nat len) ;; wchk c
   end) ;;;
  c <- nc_def_var (wr_id nc) x [d] (VChar "") ;; wchk c ;;;
  add_attribute nc x att "" ;;;
  iret (mkWr (wr_id nc) (wr_regs nc ++ [(x, LocS name (Z.of_nat len))])).
(** write_and_close, lines 142-167 *)
Fixpoint put_all (h : Z) (env : list (string * lval)) (l : list (string * ptr)) : io unit :=
  match l with
  | [] => iret tt
  | (x, p) :: l => c <- nc_put_var h x (deref env p) ;; wchk c ;;; put_all h env l
  end.
Definition write_and_close (nc : writer) (env : list (string * lval)) : io unit :=
  c <- nc_enddef (wr_id nc) ;; wchk c ;;;
  put_all (wr_id nc) env (wr_regs nc) ;;;
  c <- nc_close (wr_id nc) ;; wchk c.

(** ** write_boozmn.cpp.  [version] is the constant of booz_xform.hpp:25-33. *)
Variable version : string.

(** A vector or matrix member passed to put *)
Definition put_ints (nc : writer) (ds : list string) (x : string) (f : nfield) (att units : string) : io writer :=
  o <- theobj ;; put nc ds x INT (MemN f (asize (oN o f))) att units.
Definition put_arr (nc : writer) (ds : list string) (x : string) (f : afield) (att units : string) : io writer :=
  o <- theobj ;; put nc ds x DBL (MemA f (asize (oA o f))) att units.
Definition put_mat (nc : writer) (x : string) (f : afield) (att units : string) : io writer :=
  o <- theobj ;;
  (if inside 0 0 (arows (oA o f)) (acols (oA o f)) then iret tt else iub "element (0,0) of an empty matrix") ;;;
  put nc ["pack_rad"; "mn_modes"]%string x DBL (MemA f (asize (oA o f))) att units.
Definition put_local_mat (nc : writer) (x : string) (a : arr) (att units : string) : io writer :=
  (if inside 0 0 (arows a) (acols a) then iret tt else iub "element (0,0) of an empty matrix") ;;;
  put nc ["pack_rad"; "mn_modes"]%string x DBL (LocA x (asize a)) att units.

(** Lines 61-70 for one of the three arrays *)
Definition prepend_zero (f : afield) (ns_in : Z) : io arr :=
  n <- lift (iadd ns_in 1) ;;
  a <- new_vec n ;;
  lift (bind (vset a 0 (toF 0)) (fun a =>
    for_ 0 ns_in a (fun j a => bind (getv f j) (fun x => vset a (j + 1) x)))).
(** A local Vector(n) after setZero *)
Definition zero_vec (n : Z) : io arr := lift (zeros (toF 0) n 1).

Definition placeholder_str : string := "Not implemented in this version of booz_xform. Just zero.".
Definition radius_dim_comment : string :=
  " The radial grid corresponds to all surfaces on which input data were available, and a 0 is prepended".

Definition write_boozmn (filename : string) : io unit :=
  chatter (out ("Writing output to " ++ filename) [] []) ;;;                     (* 10 *)
  nc <- new_writer filename ;;                                                   (* 11 *)
  ns_in <- lift (geti I_ns_in) ;; n1 <- lift (iadd ns_in 1) ;;                   (* 15-26 *)
  wdim nc "radius" n1 ;;;
  mnboz <- lift (geti I_mnboz) ;;
  wdim nc "mn_mode" mnboz ;;;
  wdim nc "mn_modes" mnboz ;;;
  ncs <- lift (sizen N_compute_surfs) ;;
  wdim nc "comput_surfs" ncs ;;;
  wdim nc "pack_rad" ncs ;;;
  let long_version := ("C++/Python booz_xform " ++ version)%string in            (* 29-30 *)
  nc <- put_string nc "version" "long_version" long_version "" ;;
  asym <- lift (getb B_asym) ;;                                                  (* 32-41 *)
  nc <- put nc [] "lasym__logical__" INT (LocI "asym_int")
    "0 if the configuration is stellarator-symmetric, 1 if not" "" ;;
  nc <- put nc [] "ns_b" INT (LocI "ns")
    "The number of radial grid points in the equilibrium before the transformation to Boozer coordinates" "dimensionless" ;;
  nc <- put nc [] "nfp_b" INT (MemI I_nfp) "The number of identical field periods" "dimensionless" ;;
  nc <- put nc [] "mboz_b" INT (MemI I_mboz)
    "Maximum poloidal mode number m for which the Fourier amplitudes rmnc, bmnc etc are stored" "dimensionless" ;;
  nc <- put nc [] "nboz_b" INT (MemI I_nboz)
    "Maximum toroidal mode number n for which the Fourier amplitudes rmnc, bmnc etc are stored" "dimensionless" ;;
  nc <- put nc [] "mnboz_b" INT (MemI I_mnboz)
    "The total number of (m,n) pairs for which Fourier amplitudes rmnc, bmnc etc are stored." "dimensionless" ;;
  nc <- put nc [] "aspect_b" DBL (MemF F_aspect) "Aspect ratio, if provided" "dimensionless" ;;
  nc <- put nc [] "rmax_b" DBL (LocF "rmax_b") placeholder_str "dimensionless" ;;    (* 48-52 *)
  nc <- put nc [] "rmin_b" DBL (LocF "rmin_b") placeholder_str "dimensionless" ;;
  nc <- put nc [] "betaxis_b" DBL (LocF "betaxis_b") placeholder_str "dimensionless" ;;
  ns_b <- lift (geti I_ns_b) ;;                                                  (* 55-59 *)
  jlist <- lift (bind (resize empty_vec ns_b 1) (fun a =>
             for_ 0 ns_b a (fun j a => bind (getn N_compute_surfs j) (fun x => bind (iadd x 2) (fun y => vset a j y))))) ;;
  nc <- put nc ["comput_surfs"]%string "jlist" INT (LocN "jlist" (asize jlist))
    "1-based radial indices of the original vmec solution for which the transformation to Boozer coordinates was computed. 2 corresponds to the first half-grid point." "dimensionless" ;;
  nc <- put_ints nc ["mn_modes"]%string "ixm_b" N_xm_b
    "Poloidal mode numbers m for which the Fourier amplitudes rmnc, bmnc etc are stored" "dimensionless" ;;
  nc <- put_ints nc ["mn_modes"]%string "ixn_b" N_xn_b
    "Toroidal mode numbers n for which the Fourier amplitudes rmnc, bmnc etc are stored" "dimensionless" ;;
  iota_b <- prepend_zero A_iota ns_in ;;                                         (* 62-78 *)
  buco_b <- prepend_zero A_Boozer_I_all ns_in ;;
  bvco_b <- prepend_zero A_Boozer_G_all ns_in ;;
  nc <- put nc ["radius"]%string "iota_b" DBL (LocA "iota_b" (asize iota_b))
    ("Rotational transform." ++ radius_dim_comment) "dimensionless" ;;
  nc <- put nc ["radius"]%string "buco_b" DBL (LocA "buco_b" (asize buco_b))
    ("Coefficient multiplying grad theta_Boozer in the covariant representation of the magnetic field vector, often denoted I(psi)." ++ radius_dim_comment) "Tesla * meter" ;;
  nc <- put nc ["radius"]%string "bvco_b" DBL (LocA "bvco_b" (asize bvco_b))
    ("Coefficient multiplying grad zeta_Boozer in the covariant representation of the magnetic field vector, often denoted G(psi)." ++ radius_dim_comment) "Tesla * meter" ;;
  pres_b <- new_vec n1 ;;                                                        (* 83-85; beta_b itself is not used *)
  nc <- put nc ["radius"]%string "beta_b" DBL (LocA "pres_b" (asize pres_b)) placeholder_str "dimensionless" ;;
  phip_dummy <- zero_vec n1 ;; chi_dummy <- zero_vec n1 ;; phi_dummy <- zero_vec n1 ;;    (* 86-102 *)
  nphip <- lift (bind (getarr A_phip) (fun a => Ret (asize a))) ;;
  '(nc, pres_b) <-
    (if nphip =? 0 then
       pres_b <- zero_vec n1 ;;
       nc <- put nc ["radius"]%string "phip_b" DBL (LocA "phip_dummy" (asize phip_dummy)) placeholder_str "Tesla * meter^2" ;;
       nc <- put nc ["radius"]%string "chi_b" DBL (LocA "chi_dummy" (asize chi_dummy)) placeholder_str "Tesla * meter^2" ;;
       nc <- put nc ["radius"]%string "pres_b" DBL (LocA "pres_b" (asize pres_b)) placeholder_str "dimensionless" ;;
       nc <- put nc ["radius"]%string "phi_b" DBL (LocA "phi_dummy" (asize phi_dummy)) placeholder_str "Tesla * meter^2" ;;
       iret (nc, pres_b)
     else
       lift (putv A_phip 0 (toF 0)) ;;;
       nc <- put_arr nc ["radius"]%string "phip_b" A_phip
         "Derivative of toroidal flux (divided by (-2*pi)) with respect to s. This grid generally does not correspond to the radial grid used for other quantities in this file!" "Tesla * meter^2" ;;
       nc <- put_arr nc ["radius"]%string "chi_b" A_chi
         "Poloidal flux (not divided by (2*pi)). This grid generally does not correspond to the radial grid used for other quantities in this file!" "Tesla * meter^2" ;;
       nc <- put_arr nc ["radius"]%string "pres_b" A_pres
         "Pressure on full vmec grid. This grid generally does not correspond to the radial grid used for other quantities in this file!" "Pascal" ;;
       nc <- put_arr nc ["radius"]%string "phi_b" A_phi
         "Uniformly spaced grid going from 0 to the boundary toroidal flux (not divided by (2*pi)). This grid generally does not correspond to the radial grid used for other quantities in this file!" "Tesla * meter^2" ;;
       iret (nc, pres_b)) ;;
  nc <- put_mat nc "bmnc_b" A_bmnc_b                                             (* 105-124 *)
    "cos(m * theta_Boozer - n * zeta_Boozer) Fourier amplitudes of the magnetic field strength" "Tesla" ;;
  nc <- put_mat nc "rmnc_b" A_rmnc_b
    "cos(m * theta_Boozer - n * zeta_Boozer) Fourier amplitudes of the major radius R" "meter" ;;
  nc <- put_mat nc "zmns_b" A_zmns_b
    "sin(m * theta_Boozer - n * zeta_Boozer) Fourier amplitudes of the Cartesian coordinate Z" "meter" ;;
  pmns_b <- lift (bind (getarr A_numns_b) neg_arr) ;;
  nc <- put_local_mat nc "pmns_b" pmns_b
    "sin(m * theta_Boozer - n * zeta_Boozer) Fourier amplitudes of the angle difference zeta_VMEC - zeta_Boozer" "dimensionless" ;;
  nc <- put_mat nc "gmn_b" A_gmnc_b
    "cos(m * theta_Boozer - n * zeta_Boozer) Fourier amplitudes of the Boozer coordinate Jacobian (G + iota * I) / B^2" "meter/Tesla" ;;
  '(nc, pmnc_b) <-                                                               (* 119, 126-144 *)
    (if asym : bool then
       nc <- put_mat nc "bmns_b" A_bmns_b
         "sin(m * theta_Boozer - n * zeta_Boozer) Fourier amplitudes of the magnetic field strength" "Tesla" ;;
       nc <- put_mat nc "rmns_b" A_rmns_b
         "sin(m * theta_Boozer - n * zeta_Boozer) Fourier amplitudes of the major radius R" "meter" ;;
       nc <- put_mat nc "zmnc_b" A_zmnc_b
         "cos(m * theta_Boozer - n * zeta_Boozer) Fourier amplitudes of the Cartesian coordinate Z" "meter" ;;
       pmnc_b <- lift (bind (getarr A_numnc_b) neg_arr) ;;
       nc <- put_local_mat nc "pmnc_b" pmnc_b
         "cos(m * theta_Boozer - n * zeta_Boozer) Fourier amplitudes of the angle difference zeta_VMEC - zeta_Boozer" "dimensionless" ;;
       nc <- put_mat nc "gmns_b" A_gmns_b
         "sin(m * theta_Boozer - n * zeta_Boozer) Fourier amplitudes of the Boozer coordinate Jacobian (G + iota * I) / B^2" "meter/Tesla" ;;
       iret (nc, pmnc_b)
     else iret (nc, empty_mat)) ;;
  write_and_close nc                                                             (* 147 *)
    [("long_version", LS long_version); ("asym_int", LI (if asym : bool then 1 else 0)); ("ns", LI n1);
     ("rmax_b", LF (toF 0)); ("rmin_b", LF (toF 0)); ("betaxis_b", LF (toF 0)); ("jlist", LN jlist);
     ("iota_b", LA iota_b); ("buco_b", LA buco_b); ("bvco_b", LA bvco_b); ("pres_b", LA pres_b);
     ("phip_dummy", LA phip_dummy); ("chi_dummy", LA chi_dummy); ("phi_dummy", LA phi_dummy);
     ("pmns_b", LA pmns_b); ("pmnc_b", LA pmnc_b)]%string.

End NcModel.

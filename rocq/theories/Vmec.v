(** init_from_vmec.cpp: validation of VMEC data, the half-grid shift, the interpolation of
    R and Z from the full to the half grid, the default resolution. *)
From Coq Require Import ZArith QArith List String Bool.
From Verif Require Import Scalar Prog.
Import ListNotations.
Local Open Scope Z_scope.
Local Open Scope prog_scope.

Section Vmec.
Variable S : Scalar.
Notation prog := (prog S).
Notation arr := (arr S).
Notation F := (F S).
Local Notation toF := (fofZ S).

(** The arguments, init_from_vmec.cpp:11-28, passed by reference and only read.  They are
    assumed not to be members of the object itself. *)
Record vargs : Type := mkVargs {
  v_ns : Z; v_iotas : arr;
  v_rmnc : arr; v_rmns : arr; v_zmnc : arr; v_zmns : arr; v_lmnc : arr; v_lmns : arr;
  v_bmnc : arr; v_bmns : arr; v_bsubumnc : arr; v_bsubumns : arr; v_bsubvmnc : arr; v_bsubvmns : arr;
  v_phip : arr; v_chi : arr; v_pres : arr; v_phi : arr
}.

(** [if (b) throw std::runtime_error(msg);] *)
Definition reject (b : bool) (msg : string) : prog unit := if b then Throw msg else Ret tt.
Definition ne (a b : Z) : bool := negb (a =? b).

(** Lines 60-65 and 67-72 (with the [asym] block, 75-80 and 82-87): one group of six
    arrays, first all column counts, then all row counts. *)
Definition vet_cols (ns : Z) (l : list (string * arr)) : prog unit :=
  fold_right (fun x k => reject (ne (acols (snd x)) ns) (fst x ++ " has wrong number of cols") ;;; k) (Ret tt) l.
Definition vet_rows (l : list (string * arr * Z)) : prog unit :=
  fold_right (fun x k => reject (ne (arows (snd (fst x))) (snd x)) (fst (fst x) ++ " has the wrong number of rows") ;;; k)
    (Ret tt) l.

(** Lines 34-93. *)
Definition vet (v : vargs) : prog unit :=
  let ns := v_ns v in
  reject (ns <? 2) "ns must be at least 2" ;;;
  nfp <- geti I_nfp ;;
  reject (nfp <? 1) "nfp must be at least 1" ;;;
  reject (ne (asize (v_iotas v)) ns) "iotas.size() is not ns" ;;;
  (if asize (v_phip v) =? 0 then Ret tt else
     reject (ne (asize (v_phip v)) ns) "phip0.size() is not ns" ;;;
     reject (ne (asize (v_chi v)) ns) "chi0.size() is not ns" ;;;
     reject (ne (asize (v_pres v)) ns) "pres0.size() is not ns" ;;;
     reject (ne (asize (v_phi v)) ns) "phi0.size() is not ns") ;;;
  mnmax <- geti I_mnmax ;;
  n <- sizen N_xm ;; reject (ne n mnmax) "Size of xm is not mnmax" ;;;
  n <- sizen N_xn ;; reject (ne n mnmax) "Size of xn is not mnmax" ;;;
  mnmax_nyq <- geti I_mnmax_nyq ;;
  n <- sizen N_xm_nyq ;; reject (ne n mnmax_nyq) "Size of xm_nyq is not mnmax_nyq" ;;;
  n <- sizen N_xn_nyq ;; reject (ne n mnmax_nyq) "Size of xn_nyq is not mnmax_nyq" ;;;
  (* 51-58 *)
  x <- getn N_xm 0 ;; reject (ne x 0) "xm does not seem correct" ;;;
  x <- getn N_xn 0 ;; reject (ne x 0) "xn does not seem correct" ;;;
  x <- getn N_xm_nyq 0 ;; reject (ne x 0) "xm_nyq does not seem correct" ;;;
  x <- getn N_xn_nyq 0 ;; reject (ne x 0) "xn_nyq does not seem correct" ;;;
  l <- isub mnmax 1 ;; x <- getn N_xn l ;; ntor <- geti I_ntor ;; t <- imul nfp ntor ;;
  reject (ne x t) "xn does not seem correct" ;;;
  l <- isub mnmax_nyq 1 ;; x <- getn N_xn_nyq l ;; ntor_nyq <- geti I_ntor_nyq ;; t <- imul nfp ntor_nyq ;;
  reject (ne x t) "xn_nyq does not seem correct" ;;;
  (* 60-72 *)
  vet_cols ns [("rmnc0"%string, v_rmnc v); ("zmns0"%string, v_zmns v); ("lmns0"%string, v_lmns v);
               ("bmnc0"%string, v_bmnc v); ("bsubumnc0"%string, v_bsubumnc v); ("bsubvmnc0"%string, v_bsubvmnc v)] ;;;
  vet_rows [("rmnc0"%string, v_rmnc v, mnmax); ("zmns0"%string, v_zmns v, mnmax); ("lmns0"%string, v_lmns v, mnmax);
            ("bmnc0"%string, v_bmnc v, mnmax_nyq); ("bsubumnc0"%string, v_bsubumnc v, mnmax_nyq);
            ("bsubvmnc0"%string, v_bsubvmnc v, mnmax_nyq)] ;;;
  (* 74-88 *)
  asym <- getb B_asym ;;
  (if asym then
     vet_cols ns [("rmns0"%string, v_rmns v); ("zmnc0"%string, v_zmnc v); ("lmnc0"%string, v_lmnc v);
                  ("bmns0"%string, v_bmns v); ("bsubumns0"%string, v_bsubumns v); ("bsubvmns0"%string, v_bsubvmns v)] ;;;
     vet_rows [("rmns0"%string, v_rmns v, mnmax); ("zmnc0"%string, v_zmnc v, mnmax); ("lmnc0"%string, v_lmnc v, mnmax);
               ("bmns0"%string, v_bmns v, mnmax_nyq); ("bsubumns0"%string, v_bsubumns v, mnmax_nyq);
               ("bsubvmns0"%string, v_bsubvmns v, mnmax_nyq)]
   else Ret tt) ;;;
  (* 90-93 *)
  n <- sizen N_compute_surfs ;;
  for_ 0 n tt (fun j _ =>
    x <- getn N_compute_surfs j ;;
    reject (x <? 0) "compute_surfs cannot be negative" ;;;
    t <- isub ns 1 ;;
    reject (t <=? x) "compute_surfs has an entry that is too large for the given ns").

(** [m.resize(r, c)] on a member *)
Definition resize_member (f : afield) (r c : Z) : prog unit :=
  a <- getarr f ;; a <- resize a r c ;; setarr f a.

(** [for (j = 0; j < n; j++) f[j] = x(j)] on a vector member *)
Definition fill_vec (f : afield) (n : Z) (x : Z -> prog F) : prog unit :=
  a <- getarr f ;;
  a <- for_ 0 n a (fun j a => y <- x j ;; vset a j y) ;;
  setarr f a.

(** Lines 133-137, 144-150, 158-162, 168-174: all but the first radial entry.  Where one loop
    copies several arrays, here they are copied one after the other (each iteration only
    touches its own cells). *)
Definition drop_first (f : afield) (rows ns_in : Z) (x0 : arr) : prog unit :=
  a <- getarr f ;;
  a <- for_ 0 ns_in a (fun j a =>
         for_ 0 rows a (fun k a => y <- mget x0 k (j + 1) ;; mset a k j y)) ;;
  setarr f a.

(** Lines 226-284 for one of rmnc, zmns, rmns, zmnc; again one after the other instead of
    together. *)
Definition interp (f : afield) (mnmax ns_in : Z) (x0 full half : arr) : prog unit :=
  a <- getarr f ;;
  a <- for_ 0 mnmax a (fun j a =>
         m <- getn N_xm j ;;
         r <- irem m 2 ;;
         if r =? 0 then
           for_ 0 ns_in a (fun k a =>
             x <- mget x0 j k ;; y <- mget x0 j (k + 1) ;;
             mset a j k (flit S (1 # 2) * (x + y))%sc)
         else
           a <- for_ 0 ns_in a (fun k a =>
                  x <- mget x0 j k ;; p <- vget full k ;;
                  y <- mget x0 j (k + 1) ;; q <- vget full (k + 1) ;;
                  h <- vget half k ;;
                  mset a j k (flit S (1 # 2) * (x / p + y / q) * h)%sc) ;;
           if m =? 1 then
             x <- mget x0 j 1 ;; p <- vget full 1 ;;
             y <- mget x0 j 2 ;; q <- vget full 2 ;;
             h <- vget half 0 ;;
             mset a j 0 ((flit S (3 # 2) * x / p - flit S (1 # 2) * y / q) * h)%sc
           else Ret a) ;;
  setarr f a.

(** [std::cout << v] for a vector *)
Definition elems {T} (a : array T) : prog (list T) :=
  for_ 0 (asize a) [] (fun j l => x <- vget a j ;; Ret (l ++ [x])).
Definition elems_n (f : nfield) : prog (list Z) :=
  n <- sizen f ;; for_ 0 n [] (fun j l => x <- getn f j ;; Ret (l ++ [x])).

(** Lines 177-195.  Line 183 prints iotas under the label "iota". *)
Definition report (v : vargs) : prog unit :=
  verbose <- geti I_verbose ;;
  if 0 <? verbose then
    mpol <- geti I_mpol ;; ntor <- geti I_ntor ;;
    mnmax <- geti I_mnmax ;; mnmax_nyq <- geti I_mnmax_nyq ;;
    out "Read ns, mpol, ntor, mnmax, mnmax_nyq" [v_ns v; mpol; ntor; mnmax; mnmax_nyq] [] ;;;
    if 1 <? verbose then
      l <- elems (v_iotas v) ;; out "iotas" [] l ;;;
      l <- elems (v_iotas v) ;; out "iota" [] l ;;;
      l <- elems_n N_xm ;; out "xm" l [] ;;;
      l <- elems_n N_xn ;; out "xn" l [] ;;;
      l <- for_ 0 4 [] (fun j l => x <- mget (v_rmnc v) 0 j ;; Ret (l ++ [x])) ;;
      out "rmnc, increasing ns index" [] l ;;;
      l <- for_ 0 4 [] (fun j l => x <- mget (v_rmnc v) j 0 ;; Ret (l ++ [x])) ;;
      out "rmnc, increasing mnmax index" [] l
    else Ret tt
  else Ret tt.

(** Lines 97-123. *)
Definition store_profiles (v : vargs) (ns_in : Z) : prog unit :=
  resize_member A_iota ns_in 1 ;;;
  fill_vec A_iota ns_in (fun j => vget (v_iotas v) (j + 1)) ;;;
  (if asize (v_phip v) =? 0 then
     resize_member A_phip 0 1 ;;; resize_member A_chi 0 1 ;;;
     resize_member A_pres 0 1 ;;; resize_member A_phi 0 1 ;;;
     setf F_toroidal_flux (flit S (0 # 1))
   else
     n <- iadd ns_in 1 ;;
     resize_member A_phip n 1 ;;; resize_member A_chi n 1 ;;;
     resize_member A_pres n 1 ;;; resize_member A_phi n 1 ;;;
     fill_vec A_phip n (fun j => x <- vget (v_phip v) j ;; Ret (- x / ftwopi S)%sc) ;;;
     fill_vec A_chi n (fun j => vget (v_chi v) j) ;;;
     fill_vec A_pres n (fun j => vget (v_pres v) j) ;;;
     fill_vec A_phi n (fun j => vget (v_phi v) j) ;;;
     l <- isub (v_ns v) 1 ;; x <- getv A_phi l ;;
     setf F_toroidal_flux x) ;;;
  cs <- zeros 0 ns_in 1 ;;     (* resize, then every element is assigned *)
  cs <- for_ 0 ns_in cs (fun j cs => vset cs j j) ;;
  setn N_compute_surfs cs.

(** Lines 125-175. *)
Definition store_half (v : vargs) (ns_in : Z) : prog unit :=
  mnmax <- geti I_mnmax ;;
  resize_member A_rmnc mnmax ns_in ;;;
  resize_member A_zmns mnmax ns_in ;;;
  resize_member A_lmns mnmax ns_in ;;;
  drop_first A_lmns mnmax ns_in (v_lmns v) ;;;
  mnmax_nyq <- geti I_mnmax_nyq ;;
  resize_member A_bmnc mnmax_nyq ns_in ;;;
  resize_member A_bsubumnc mnmax_nyq ns_in ;;;
  resize_member A_bsubvmnc mnmax_nyq ns_in ;;;
  drop_first A_bmnc mnmax_nyq ns_in (v_bmnc v) ;;;
  drop_first A_bsubumnc mnmax_nyq ns_in (v_bsubumnc v) ;;;
  drop_first A_bsubvmnc mnmax_nyq ns_in (v_bsubvmnc v) ;;;
  asym <- getb B_asym ;;
  if asym then
    resize_member A_rmns mnmax ns_in ;;;
    resize_member A_zmnc mnmax ns_in ;;;
    resize_member A_lmnc mnmax ns_in ;;;
    drop_first A_lmnc mnmax ns_in (v_lmnc v) ;;;
    resize_member A_bmns mnmax_nyq ns_in ;;;
    resize_member A_bsubumns mnmax_nyq ns_in ;;;
    resize_member A_bsubvmns mnmax_nyq ns_in ;;;
    drop_first A_bmns mnmax_nyq ns_in (v_bmns v) ;;;
    drop_first A_bsubumns mnmax_nyq ns_in (v_bsubumns v) ;;;
    drop_first A_bsubvmns mnmax_nyq ns_in (v_bsubvmns v)
  else Ret tt.

(** Lines 211-222: sqrt(s) on the full and the half grid, and s_in. *)
Definition radial_grids (ns : Z) : prog (arr * arr) :=
  let hs := (f1 S / (toF ns - f1 S))%sc in
  ns1 <- isub ns 1 ;;
  full <- resize empty_vec ns 1 ;;
  half <- resize empty_vec ns1 1 ;;
  resize_member A_s_in ns1 1 ;;;
  full <- for_ 0 ns full (fun j a => vset a j (fsqrt S (hs * toF j))%sc) ;;
  fill_vec A_s_in ns1 (fun j => Ret (hs * (toF j + flit S (1 # 2)))%sc) ;;;
  half <- for_ 0 ns1 half (fun j a => x <- getv A_s_in j ;; vset a j (fsqrt S x)) ;;
  full <- vset full 0 (f1 S) ;;
  Ret (full, half).

Definition init_from_vmec (v : vargs) : prog unit :=
  ns_in <- isub (v_ns v) 1 ;;
  seti I_ns_in ns_in ;;;                                    (* 30 *)
  vet v ;;;                                                 (* 34-93 *)
  store_profiles v ns_in ;;;                                (* 97-123 *)
  store_half v ns_in ;;;                                    (* 125-175 *)
  report v ;;;                                              (* 177-195 *)
  '(full, half) <- radial_grids (v_ns v) ;;                 (* 211-222 *)
  mnmax <- geti I_mnmax ;;
  asym <- getb B_asym ;;
  interp A_rmnc mnmax ns_in (v_rmnc v) full half ;;;        (* 226-284 *)
  interp A_zmns mnmax ns_in (v_zmns v) full half ;;;
  (if asym then
     interp A_rmns mnmax ns_in (v_rmns v) full half ;;;
     interp A_zmnc mnmax ns_in (v_zmnc v) full half
   else Ret tt) ;;;
  mpol <- geti I_mpol ;;                                    (* 298-299 *)
  x <- imul 6 mpol ;; seti I_mboz x ;;;
  ntor <- geti I_ntor ;;
  x <- imul 2 ntor ;; x <- isub x 1 ;;
  seti I_nboz (Z.max x 0).

End Vmec.

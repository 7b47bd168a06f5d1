(** bindings.cpp: the Python interface, and Python programs that use it.

    A Python program makes calls on a Booz_xform object.  A C++ exception becomes a Python
    exception, which the program may catch and go on; what it does next may depend on whether
    there was one and on everything it can read from the object. *)
From Coq Require Import ZArith List String Bool.
From Verif Require Import Scalar Prog Model Vmec Nc NcModel FuncExt.
Import ListNotations.
Local Open Scope Z_scope.
Local Open Scope io_scope.

Section Py.
Variable S : Scalar.
Notation obj := (obj S).
Notation world := (world S).
Notation io := (io S).
Notation arr := (arr S).
Notation F := (F S).

(** ** Attributes *)

(** def_readwrite, lines 108-290; the other members with a name in Python are def_readonly
    (lines 294-395), and the private ones have none. *)
Definition rw_int (f : ifield) : bool :=
  match f with
  | I_verbose | I_nfp | I_mpol | I_ntor | I_mnmax | I_mpol_nyq | I_ntor_nyq | I_mnmax_nyq
  | I_ns_in | I_mboz | I_nboz => true
  | _ => false
  end.
Definition rw_bool (f : bfield) : bool := match f with B_asym => true | B_completed => false end.
Definition rw_flt (f : ffield) : bool := match f with F_aspect | F_toroidal_flux => true | _ => false end.
Definition rw_ints (f : nfield) : bool := match f with N_xm_b | N_xn_b => false | _ => true end.
Definition rw_arr (f : afield) : bool :=
  match f with
  | A_s_in | A_iota | A_phi | A_chi | A_phip | A_pres
  | A_rmnc | A_rmns | A_zmnc | A_zmns | A_lmnc | A_lmns
  | A_bmnc | A_bmns | A_bsubumnc | A_bsubumns | A_bsubvmnc | A_bsubvmns => true
  | _ => false
  end.
(** Members of type Vector rather than Matrix, booz_xform.hpp *)
Definition is_vector (f : afield) : bool :=
  match f with
  | A_theta_grid | A_zeta_grid | A_s_in | A_iota | A_s_b
  | A_Boozer_G | A_Boozer_G_all | A_Boozer_I | A_Boozer_I_all
  | A_phi | A_phip | A_chi | A_pres => true
  | _ => false
  end.

(** ** Calls

    The arguments are already of the right Python type (int, bool, float, str, arrays of
    numbers); the conversion of arrays to Eigen's makes a copy.  [Elsewhere g] is not a call:
    between two calls other programs may change the file system. *)
Inductive call : Type :=
| New                                          (* b = Booz_xform(), line 18 *)
| PutInt (f : ifield) (v : Z)                    (* b.nfp = v *)
| PutBool (f : bfield) (v : bool)
| PutFlt (f : ffield) (v : F)
| PutInts (f : nfield) (n : nat) (g : Z -> Z)     (* an array of n ints *)
| PutArr (f : afield) (r c : nat) (g : Z -> Z -> F)
| ReadWout (x : string) (flux : bool)          (* lines 20-27 *)
| InitFromVmec (v : vargs S)                   (* lines 29-85 *)
| Run                                          (* lines 87-89 *)
| Write (x : string)                           (* lines 91-97 *)
| ReadBoozmn (x : string)                      (* lines 99-104 *)
| Elsewhere (g : (string -> option (disk S)) -> string -> option (disk S)).

Variable version : string.

Definition no_setter {A} : io A := ithrow "AttributeError: can't set attribute".
Definition type_error {A} : io A := ithrow "TypeError: incompatible function arguments".

Definition exec (c : call) : io unit :=
  match c with
  | New => setobj S (obj_new S)
  | PutInt f v => if rw_int f then (if in_int v then lift (seti f v) else type_error) else no_setter
  | PutBool f v => if rw_bool f then lift (setb f v) else no_setter
  | PutFlt f v => if rw_flt f then lift (setf f v) else no_setter
  | PutInts f n g => if rw_ints f then lift (setn f (tab (Z.of_nat n) g)) else no_setter
  | PutArr f r c g =>
      if rw_arr f then
        if is_vector f && negb (c =? 1)%nat then type_error
        else lift (setarr f (tabm (Z.of_nat r) (Z.of_nat c) g))
      else no_setter
  | ReadWout x fl => read_wout S x fl
  | InitFromVmec v => lift (init_from_vmec S v)
  | Run => lift (bx_run S)
  | Write x => write_boozmn S version x
  | ReadBoozmn x => read_boozmn S x
  | Elsewhere g => fun w => IOk tt (mkW (wO w) (g (wFS w)) (wOpen w) (wNext w) (wQ w) (wEv w))
  end.

(** ** Programs *)

(** After each call: the message if there was an exception, and the object. *)
Inductive script : Type :=
| Stop
| Do (c : call) (k : option string -> obj -> script).

Inductive ending : Type :=
| Finished (w : world)
| Killed (w : world)            (* the process was killed *)
| Undefined (why : string).

Fixpoint play (s : script) (w : world) : ending :=
  match s with
  | Stop => Finished w
  | Do c k =>
      match exec c w with
      | IOk _ w' => play (k None (wO w')) w'
      | IThrow m w' => play (k (Some m) (wO w')) w'
      | IUB y => Undefined y
      | IDie w' => Killed w'
      end
  end.

(** [s1] in the world [w1] gets to the point where [s2] remains to be done in the world [w2]. *)
Inductive reaches : script -> world -> script -> world -> Prop :=
| re_here s w : reaches s w s w
| re_ok c k w w' s2 w2 : exec c w = IOk tt w' -> reaches (k None (wO w')) w' s2 w2 -> reaches (Do c k) w s2 w2
| re_exn c k w m w' s2 w2 : exec c w = IThrow m w' -> reaches (k (Some m) (wO w')) w' s2 w2 -> reaches (Do c k) w s2 w2.

End Py.
Arguments New {S}. Arguments PutInt {S}. Arguments PutBool {S}. Arguments PutFlt {S}. Arguments PutInts {S}. Arguments PutArr {S}.
Arguments ReadWout {S}. Arguments InitFromVmec {S}. Arguments Run {S}. Arguments Write {S}. Arguments ReadBoozmn {S}.
Arguments Elsewhere {S}. Arguments Stop {S}. Arguments Do {S}. Arguments exec {S}. Arguments play {S}. Arguments reaches {S}.
Arguments Finished {S}. Arguments Killed {S}. Arguments Undefined {S}.

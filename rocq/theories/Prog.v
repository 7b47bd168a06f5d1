(** The object, and programs over it.

    A [Booz_xform] object (booz_xform.hpp:35-481) is modelled as total maps from member
    names to values; a member function is a term of the free monad [prog]. *)
From Coq Require Import ZArith List String Bool Lia.
From Verif Require Import Scalar.
Import ListNotations.
Local Open Scope Z_scope.

Global Arguments Z.add : simpl never.
Global Arguments Z.sub : simpl never.
Global Arguments Z.mul : simpl never.
Global Arguments Z.opp : simpl never.
Global Arguments Z.ltb : simpl never.
Global Arguments Z.leb : simpl never.
Global Arguments Z.eqb : simpl never.
Global Arguments Z.div : simpl never.
Global Arguments Z.modulo : simpl never.
Global Arguments Z.quot : simpl never.
Global Arguments Z.rem : simpl never.
Global Arguments Z.abs : simpl never.
Global Arguments Z.to_nat : simpl never.
Global Arguments Z.of_nat : simpl never.

(** ** Member names *)

(** int members: booz_xform.hpp:37-42 (private), 70-141, 236-243, 274, 284. *)
Inductive ifield : Set :=
| I_nu2_b | I_nu3_b | I_ntheta | I_nzeta | I_n_theta_zeta
| I_verbose | I_nfp | I_mpol | I_ntor | I_mnmax | I_mpol_nyq | I_ntor_nyq | I_mnmax_nyq
| I_ns_in | I_mboz | I_nboz | I_ns_b | I_mnboz.

(** bool members: booz_xform.hpp:43, 75. *)
Inductive bfield : Set := B_completed | B_asym.

(** boozfloat members: booz_xform.hpp:41, 259, 267. *)
Inductive ffield : Set := F_d_theta | F_d_zeta | F_aspect | F_toroidal_flux.

(** IntVector members: booz_xform.hpp:116-134, 252, 290, 296. *)
Inductive nfield : Set := N_xm | N_xn | N_xm_nyq | N_xn_nyq | N_compute_surfs | N_xm_b | N_xn_b.

(** Vector and Matrix members: booz_xform.hpp:44-53, 147-231, 280, 302-410. *)
Inductive afield : Set :=
| A_theta_grid | A_zeta_grid
| A_cosm | A_sinm | A_cosn | A_sinn | A_cosm_nyq | A_sinm_nyq | A_cosn_nyq | A_sinn_nyq
| A_s_in | A_iota
| A_rmnc | A_rmns | A_zmnc | A_zmns | A_lmnc | A_lmns
| A_bmnc | A_bmns | A_bsubumnc | A_bsubumns | A_bsubvmnc | A_bsubvmns
| A_s_b
| A_bmnc_b | A_bmns_b | A_gmnc_b | A_gmns_b | A_rmnc_b | A_rmns_b
| A_zmnc_b | A_zmns_b | A_numnc_b | A_numns_b
| A_Boozer_G | A_Boozer_G_all | A_Boozer_I | A_Boozer_I_all
| A_phi | A_phip | A_chi | A_pres.

Lemma ifield_eq_dec : forall x y : ifield, {x = y} + {x <> y}.
Proof. decide equality. Defined.
Lemma bfield_eq_dec : forall x y : bfield, {x = y} + {x <> y}.
Proof. decide equality. Defined.
Lemma ffield_eq_dec : forall x y : ffield, {x = y} + {x <> y}.
Proof. decide equality. Defined.
Lemma nfield_eq_dec : forall x y : nfield, {x = y} + {x <> y}.
Proof. decide equality. Defined.
Lemma afield_eq_dec : forall x y : afield, {x = y} + {x <> y}.
Proof. decide equality. Defined.

(** ** Lists indexed by Z *)

(** [znth l i] is the cell [i] of a block of memory, [None] outside of it. *)
Definition znth {A} (l : list A) (i : Z) : option A :=
  if i <? 0 then None else nth_error l (Z.to_nat i).

Fixpoint set_nth {A} (l : list A) (n : nat) (x : A) : list A :=
  match l, n with
  | [], _ => []
  | _ :: t, O => x :: t
  | h :: t, S n' => h :: set_nth t n' x
  end.

Definition zset {A} (l : list A) (i : Z) (x : A) : list A := set_nth l (Z.to_nat i) x.

Definition zrepeat {A} (x : A) (n : Z) : list A := repeat x (Z.to_nat n).

(** ** Arrays

    Eigen::ArrayXXd is column-major with unchecked element access in a Release build:
    [m(i,j)] is the cell [i + j*rows] of the allocated block, [v(i)] and [v[i]] are cell
    [i].  A Vector (ArrayXd) has one column.  A cell is [None] while indeterminate. *)
Record array (T : Type) : Type := mkArr { arows : Z; acols : Z; adata : list (option T) }.
Arguments mkArr {T} _ _ _.
Arguments arows {T} _.
Arguments acols {T} _.
Arguments adata {T} _.

Definition asize {T} (a : array T) : Z := arows a * acols a.

(** A default-constructed Matrix / Vector. *)
Definition empty_mat {T} : array T := mkArr 0 0 [].
Definition empty_vec {T} : array T := mkArr 0 1 [].

(** ** Objects *)
Section WithScalar.
Variable S : Scalar.

Definition arr := array (F S).
Definition narr := array Z.

Record obj : Type := mkObj {
  oI : ifield -> option Z;
  oB : bfield -> option bool;
  oF : ffield -> option (F S);
  oN : nfield -> narr;
  oA : afield -> arr
}.

Definition updI (o : obj) (f : ifield) (v : option Z) : obj :=
  mkObj (fun g => if ifield_eq_dec g f then v else oI o g) (oB o) (oF o) (oN o) (oA o).
Definition updB (o : obj) (f : bfield) (v : option bool) : obj :=
  mkObj (oI o) (fun g => if bfield_eq_dec g f then v else oB o g) (oF o) (oN o) (oA o).
Definition updF (o : obj) (f : ffield) (v : option (F S)) : obj :=
  mkObj (oI o) (oB o) (fun g => if ffield_eq_dec g f then v else oF o g) (oN o) (oA o).
Definition updN (o : obj) (f : nfield) (v : narr) : obj :=
  mkObj (oI o) (oB o) (oF o) (fun g => if nfield_eq_dec g f then v else oN o g) (oA o).
Definition updA (o : obj) (f : afield) (v : arr) : obj :=
  mkObj (oI o) (oB o) (oF o) (oN o) (fun g => if afield_eq_dec g f then v else oA o g).

Definition aput {T} (a : array T) (i : Z) (x : T) : array T :=
  mkArr (arows a) (acols a) (zset (adata a) i (Some x)).

(** ** Programs *)

(** What is written to std::cout: a label, integers and floats.  The number formatting,
    the OpenMP thread number and the number of threads are not modelled. *)
Record event : Type := mkEv { evTag : string; evInts : list Z; evFlts : list (F S) }.

Inductive prog (A : Type) : Type :=
| Ret (a : A)
| Throw (msg : string)                         (* throw std::runtime_error(msg) *)
| UB (why : string)                            (* undefined behaviour *)
| GetI (f : ifield) (k : Z -> prog A)          (* read an int member *)
| SetI (f : ifield) (v : Z) (k : prog A)
| GetB (f : bfield) (k : bool -> prog A)
| SetB (f : bfield) (v : bool) (k : prog A)
| GetF (f : ffield) (k : F S -> prog A)
| SetF (f : ffield) (v : F S) (k : prog A)
| GetN (f : nfield) (i : Z) (k : Z -> prog A)  (* element i of an IntVector member *)
| SizeN (f : nfield) (k : Z -> prog A)         (* its size() *)
| SetNArr (f : nfield) (v : narr) (k : prog A) (* assign a whole IntVector member *)
| GetA (f : afield) (i : Z) (k : F S -> prog A)(* cell i of a Vector/Matrix member *)
| PutA (f : afield) (i : Z) (x : F S) (k : prog A)
| DimA (f : afield) (k : Z -> Z -> prog A)     (* rows() and cols() *)
| GetArr (f : afield) (k : arr -> prog A)      (* a copy of / reference to a whole member *)
| SetArr (f : afield) (v : arr) (k : prog A)   (* assign (resize) a whole member *)
| Out (e : event) (k : prog A).                (* std::cout << ... *)

Arguments Ret {A} a.
Arguments Throw {A} msg.
Arguments UB {A} why.
Arguments GetI {A} f k.
Arguments SetI {A} f v k.
Arguments GetB {A} f k.
Arguments SetB {A} f v k.
Arguments GetF {A} f k.
Arguments SetF {A} f v k.
Arguments GetN {A} f i k.
Arguments SizeN {A} f k.
Arguments SetNArr {A} f v k.
Arguments GetA {A} f i k.
Arguments PutA {A} f i x k.
Arguments DimA {A} f k.
Arguments GetArr {A} f k.
Arguments SetArr {A} f v k.
Arguments Out {A} e k.

Fixpoint bind {A B} (p : prog A) (k : A -> prog B) : prog B :=
  match p with
  | Ret a => k a
  | Throw m => Throw m
  | UB w => UB w
  | GetI f c => GetI f (fun v => bind (c v) k)
  | SetI f v c => SetI f v (bind c k)
  | GetB f c => GetB f (fun v => bind (c v) k)
  | SetB f v c => SetB f v (bind c k)
  | GetF f c => GetF f (fun v => bind (c v) k)
  | SetF f v c => SetF f v (bind c k)
  | GetN f i c => GetN f i (fun v => bind (c v) k)
  | SizeN f c => SizeN f (fun v => bind (c v) k)
  | SetNArr f v c => SetNArr f v (bind c k)
  | GetA f i c => GetA f i (fun v => bind (c v) k)
  | PutA f i x c => PutA f i x (bind c k)
  | DimA f c => DimA f (fun r q => bind (c r q) k)
  | GetArr f c => GetArr f (fun v => bind (c v) k)
  | SetArr f v c => SetArr f v (bind c k)
  | Out e c => Out e (bind c k)
  end.

(** ** Sequential semantics *)

Inductive res (A : Type) : Type :=
| ROk (a : A) (o : obj) (ev : list event)
| RThrow (msg : string) (o : obj) (ev : list event)
| RUB (why : string).
Arguments ROk {A} a o ev.
Arguments RThrow {A} msg o ev.
Arguments RUB {A} why.

Definition emit {A} (e : event) (r : res A) : res A :=
  match r with
  | ROk a o ev => ROk a o (e :: ev)
  | RThrow m o ev => RThrow m o (e :: ev)
  | RUB w => RUB w
  end.

Fixpoint run {A} (p : prog A) (o : obj) : res A :=
  match p with
  | Ret a => ROk a o []
  | Throw m => RThrow m o []
  | UB w => RUB w
  | GetI f k => match oI o f with Some v => run (k v) o | None => RUB "uninitialised int member" end
  | SetI f v k => run k (updI o f (Some v))
  | GetB f k => match oB o f with Some v => run (k v) o | None => RUB "uninitialised bool member" end
  | SetB f v k => run k (updB o f (Some v))
  | GetF f k => match oF o f with Some v => run (k v) o | None => RUB "uninitialised double member" end
  | SetF f v k => run k (updF o f (Some v))
  | GetN f i k =>
      match znth (adata (oN o f)) i with
      | Some (Some v) => run (k v) o
      | Some None => RUB "indeterminate int element"
      | None => RUB "IntVector index out of range"
      end
  | SizeN f k => run (k (asize (oN o f))) o
  | SetNArr f v k => run k (updN o f v)
  | GetA f i k =>
      match znth (adata (oA o f)) i with
      | Some (Some v) => run (k v) o
      | Some None => RUB "indeterminate element"
      | None => RUB "array index out of range"
      end
  | PutA f i x k =>
      match znth (adata (oA o f)) i with
      | Some _ => run k (updA o f (aput (oA o f) i x))
      | None => RUB "array index out of range"
      end
  | DimA f k => run (k (arows (oA o f)) (acols (oA o f))) o
  | GetArr f k => run (k (oA o f)) o
  | SetArr f v k => run k (updA o f v)
  | Out e k => emit e (run k o)
  end.

(** ** Helpers used to write the model *)

(** [for (int i = lo; i < hi; i++) st = body(i, st);] *)
Fixpoint for_from {St} (n : nat) (i : Z) (st : St) (body : Z -> St -> prog St) : prog St :=
  match n with
  | O => Ret st
  | Datatypes.S n' => bind (body i st) (fun st' => for_from n' (i + 1) st' body)
  end.
Definition for_ {St} (lo hi : Z) (st : St) (body : Z -> St -> prog St) : prog St :=
  for_from (Z.to_nat (hi - lo)) lo st body.

(** int is 32 bits wide; signed overflow is undefined. *)
Definition INT_MAX : Z := 2147483647.
Definition INT_MIN : Z := -2147483648.
Definition in_int (z : Z) : bool := (INT_MIN <=? z) && (z <=? INT_MAX).
Definition int_ (z : Z) : prog Z := if in_int z then Ret z else UB "signed integer overflow".
Definition iadd (a b : Z) : prog Z := int_ (a + b).
Definition isub (a b : Z) : prog Z := int_ (a - b).
Definition imul (a b : Z) : prog Z := int_ (a * b).
Definition idiv (a b : Z) : prog Z :=
  if b =? 0 then UB "integer division by zero" else int_ (Z.quot a b).
Definition irem (a b : Z) : prog Z :=
  if b =? 0 then UB "integer division by zero" else Ret (Z.rem a b).
Definition iabs (a : Z) : prog Z := int_ (Z.abs a).

Definition geti (f : ifield) : prog Z := GetI f Ret.
Definition seti (f : ifield) (v : Z) : prog unit := SetI f v (Ret tt).
Definition getb (f : bfield) : prog bool := GetB f Ret.
Definition setb (f : bfield) (v : bool) : prog unit := SetB f v (Ret tt).
Definition getf (f : ffield) : prog (F S) := GetF f Ret.
Definition setf (f : ffield) (v : F S) : prog unit := SetF f v (Ret tt).
Definition getn (f : nfield) (i : Z) : prog Z := GetN f i Ret.
Definition sizen (f : nfield) : prog Z := SizeN f Ret.
Definition setn (f : nfield) (v : narr) : prog unit := SetNArr f v (Ret tt).
Definition getv (f : afield) (i : Z) : prog (F S) := GetA f i Ret.
Definition putv (f : afield) (i : Z) (x : F S) : prog unit := PutA f i x (Ret tt).
(** Element access [m(i,j)] of a Matrix member.  Eigen requires the row and the column to be
    in range; a build without asserts would use cell i + j*rows whatever they are. *)
Definition inside (i j r c : Z) : bool := (0 <=? i) && (i <? r) && (0 <=? j) && (j <? c).
Definition getm (f : afield) (i j : Z) : prog (F S) :=
  DimA f (fun r c => if inside i j r c then GetA f (i + j * r) Ret else UB "row or column index out of range").
Definition putm (f : afield) (i j : Z) (x : F S) : prog unit :=
  DimA f (fun r c => if inside i j r c then PutA f (i + j * r) x (Ret tt) else UB "row or column index out of range").
Definition getarr (f : afield) : prog arr := GetArr f Ret.
Definition setarr (f : afield) (v : arr) : prog unit := SetArr f v (Ret tt).
Definition out (tag : string) (zs : list Z) (xs : list (F S)) : prog unit :=
  Out (mkEv tag zs xs) (Ret tt).

(** Local arrays.  [vget]/[vset] are unchecked C++ accesses: UB outside the block. *)
Definition vget {T} (a : array T) (i : Z) : prog T :=
  match znth (adata a) i with
  | Some (Some v) => Ret v
  | Some None => UB "indeterminate element of a local array"
  | None => UB "local array index out of range"
  end.
Definition vset {T} (a : array T) (i : Z) (x : T) : prog (array T) :=
  match znth (adata a) i with
  | Some _ => Ret (aput a i x)
  | None => UB "local array index out of range"
  end.
Definition mget {T} (a : array T) (i j : Z) : prog T :=
  if inside i j (arows a) (acols a) then vget a (i + j * arows a)
  else UB "row or column index of a local array out of range".
Definition mset {T} (a : array T) (i j : Z) (x : T) : prog (array T) :=
  if inside i j (arows a) (acols a) then vset a (i + j * arows a) x
  else UB "row or column index of a local array out of range".
(** [v[i] += x] *)
Definition vinc (a : arr) (i : Z) (x : F S) : prog arr :=
  bind (vget a i) (fun y => vset a i (fadd S y x)).

(** Eigen's [setZero(rows, cols)] and [setZero(size)] on any array: the previous contents
    are irrelevant.  Negative sizes violate Eigen's precondition. *)
Definition zeros {T} (zero : T) (r c : Z) : prog (array T) :=
  if (r <? 0) || (c <? 0) then UB "negative array size"
  else Ret (mkArr r c (zrepeat (Some zero) (r * c))).
(** Eigen's [resize(rows, cols)]: a block of a different total size is reallocated and
    indeterminate, a block of the same total size is kept (Eigen DenseStorage.h resize). *)
Definition resize {T} (a : array T) (r c : Z) : prog (array T) :=
  if (r <? 0) || (c <? 0) then UB "negative array size"
  else if r * c =? asize a then Ret (mkArr r c (adata a))
  else Ret (mkArr r c (zrepeat None (r * c))).

(** [try { p } catch (...) { h }] *)
Fixpoint try_ {A} (p : prog A) (h : prog A) : prog A :=
  match p with
  | Ret a => Ret a
  | Throw m => h
  | UB w => UB w
  | GetI f c => GetI f (fun v => try_ (c v) h)
  | SetI f v c => SetI f v (try_ c h)
  | GetB f c => GetB f (fun v => try_ (c v) h)
  | SetB f v c => SetB f v (try_ c h)
  | GetF f c => GetF f (fun v => try_ (c v) h)
  | SetF f v c => SetF f v (try_ c h)
  | GetN f i c => GetN f i (fun v => try_ (c v) h)
  | SizeN f c => SizeN f (fun v => try_ (c v) h)
  | SetNArr f v c => SetNArr f v (try_ c h)
  | GetA f i c => GetA f i (fun v => try_ (c v) h)
  | PutA f i x c => PutA f i x (try_ c h)
  | DimA f c => DimA f (fun r q => try_ (c r q) h)
  | GetArr f c => GetArr f (fun v => try_ (c v) h)
  | SetArr f v c => SetArr f v (try_ c h)
  | Out e c => Out e (try_ c h)
  end.

(** The constructor, booz_xform.cpp:6-17: members not mentioned there are indeterminate,
    Eigen members are empty. *)
Definition obj_new : obj :=
  mkObj
    (fun f => match f with I_verbose => Some 1 | I_mboz => Some 16 | I_nboz => Some 16 | _ => None end)
    (fun f => match f with B_completed => Some false | _ => None end)
    (fun f => match f with F_aspect => Some (fofZ S 0) | _ => None end)
    (fun _ => empty_vec)
    (fun f => match f with
              | A_theta_grid | A_zeta_grid | A_s_in | A_iota | A_s_b
              | A_Boozer_G | A_Boozer_G_all | A_Boozer_I | A_Boozer_I_all
              | A_phi | A_phip | A_chi | A_pres => empty_vec
              | _ => empty_mat
              end).

End WithScalar.

Arguments Ret {S A} a.
Arguments Throw {S A} msg.
Arguments UB {S A} why.
Arguments GetI {S A} f k.
Arguments SetI {S A} f v k.
Arguments GetB {S A} f k.
Arguments SetB {S A} f v k.
Arguments GetF {S A} f k.
Arguments SetF {S A} f v k.
Arguments GetN {S A} f i k.
Arguments SizeN {S A} f k.
Arguments SetNArr {S A} f v k.
Arguments GetA {S A} f i k.
Arguments PutA {S A} f i x k.
Arguments DimA {S A} f k.
Arguments GetArr {S A} f k.
Arguments SetArr {S A} f v k.
Arguments Out {S A} e k.
Arguments ROk {S A} a o ev.
Arguments RThrow {S A} msg o ev.
Arguments RUB {S A} why.
Arguments bind {S A B} p k.
Arguments run {S A} p o.
Arguments emit {S A} e r.
Arguments for_from {S St} n i st body.
Arguments for_ {S St} lo hi st body.
Arguments oI {S}. Arguments oB {S}. Arguments oF {S}. Arguments oN {S}. Arguments oA {S}.
Arguments mkObj {S}.
Arguments updI {S}. Arguments updB {S}. Arguments updF {S}. Arguments updN {S}. Arguments updA {S}.
Arguments aput {T} a i x.
Arguments mkEv {S}. Arguments evTag {S}. Arguments evInts {S}. Arguments evFlts {S}.
Arguments int_ {S}. Arguments iadd {S}. Arguments isub {S}. Arguments imul {S}.
Arguments idiv {S}. Arguments irem {S}. Arguments iabs {S}.
Arguments geti {S}. Arguments seti {S}. Arguments getb {S}. Arguments setb {S}.
Arguments getf {S}. Arguments setf {S}. Arguments getn {S}. Arguments sizen {S}. Arguments setn {S}.
Arguments getv {S}. Arguments putv {S}. Arguments getm {S}. Arguments putm {S}.
Arguments getarr {S}. Arguments setarr {S}. Arguments out {S}.
Arguments vget {S T}. Arguments vset {S T}. Arguments mget {S T}. Arguments mset {S T}.
Arguments vinc {S}. Arguments zeros {S T}. Arguments resize {S T}.
Arguments try_ {S A}.

Declare Scope prog_scope.
Delimit Scope prog_scope with prog.
Notation "x <- p ;; q" := (bind p (fun x => q))
  (at level 61, p at next level, right associativity) : prog_scope.
Notation "' pat <- p ;; q" := (bind p (fun x => match x with pat => q end))
  (at level 61, pat pattern, p at next level, right associativity) : prog_scope.
Notation "p ;;; q" := (bind p (fun _ => q))
  (at level 61, right associativity) : prog_scope.

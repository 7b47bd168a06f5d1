(** Arrays returned by attributes in Python, and the memory they refer to.

    bindings.cpp:118-395: def_readwrite and def_readonly of an Eigen member return a NumPy array
    that refers to the member's memory (pybind11, policy reference_internal; the array is
    read-only and keeps the object alive).  Eigen allocates other memory for a member, and frees
    the old, when its number of elements changes (DenseStorage.h, resize), otherwise it stays in
    its place.  Reading freed memory is undefined behaviour.

    The calls that read files are in PyMem.  Not modelled: what an exception of pybind11 says. *)
From Coq Require Import ZArith List String Bool.
From Verif Require Import Scalar Prog Model Vmec FuncExt Py.
Import ListNotations.
Local Open Scope Z_scope.

(** A member that is an array of floats or of ints *)
Definition member : Set := (afield + nfield)%type.
Lemma member_eq_dec : forall x y : member, {x = y} + {x <> y}.
Proof. decide equality; [apply afield_eq_dec|apply nfield_eq_dec]. Defined.

(** The number of the block of memory each member is in, and the next number *)
Record store : Type := mkStore { blk : member -> Z; blkNext : Z }.
Definition realloc (b : store) (m : member) : store :=
  mkStore (fun x => if member_eq_dec x m then blkNext b else blk b x) (blkNext b + 1).

Section View.
Variable S : Scalar.
Notation obj := (obj S).
Notation F := (F S).

Definition size (o : obj) (m : member) : Z :=
  match m with inl f => asize (oA o f) | inr f => asize (oN o f) end.

(** What a program does to the memory: the states are those of [run]. *)
Fixpoint track {A} (p : prog S A) (o : obj) (b : store) : store :=
  match p with
  | Ret _ | Throw _ | UB _ => b
  | GetI f k => match oI o f with Some v => track (k v) o b | None => b end
  | SetI f v k => track k (updI o f (Some v)) b
  | GetB f k => match oB o f with Some v => track (k v) o b | None => b end
  | SetB f v k => track k (updB o f (Some v)) b
  | GetF f k => match oF o f with Some v => track (k v) o b | None => b end
  | SetF f v k => track k (updF o f (Some v)) b
  | GetN f i k => match znth (adata (oN o f)) i with Some (Some v) => track (k v) o b | _ => b end
  | SizeN f k => track (k (asize (oN o f))) o b
  | SetNArr f v k => track k (updN o f v) (if asize v =? asize (oN o f) then b else realloc b (inr f))
  | GetA f i k => match znth (adata (oA o f)) i with Some (Some v) => track (k v) o b | _ => b end
  | PutA f i x k => match znth (adata (oA o f)) i with Some _ => track k (updA o f (aput (oA o f) i x)) b | None => b end
  | DimA f k => track (k (arows (oA o f)) (acols (oA o f))) o b
  | GetArr f k => track (k (oA o f)) o b
  | SetArr f v k => track k (updA o f v) (if asize v =? asize (oA o f) then b else realloc b (inl f))
  | Out _ k => track k o b
  end.

(** An array [x = b.bmnc_b] *)
Record view : Type := mkView { vwM : member; vwRows : Z; vwCols : Z; vwBlk : Z }.
Definition get_view (o : obj) (b : store) (m : member) : view :=
  match m with
  | inl f => mkView m (arows (oA o f)) (acols (oA o f)) (blk b m)
  | inr f => mkView m (arows (oN o f)) (acols (oN o f)) (blk b m)
  end.
(** [x[i, j]], or [x[i]] with j = 0 *)
Inductive seen (T : Type) : Type :=
| Value (x : option T)      (* None: an indeterminate value *)
| IndexError
| Freed.                    (* undefined behaviour *)
Arguments Value {T}. Arguments IndexError {T}. Arguments Freed {T}.
Definition look_in {T} (v : view) (a : array T) (here : Z) (i j : Z) : seen T :=
  if inside i j (vwRows v) (vwCols v) then
    if here =? vwBlk v then
      match znth (adata a) (i + j * vwRows v) with Some x => Value x | None => Freed end
    else Freed
  else IndexError.
Definition look (v : view) (o : obj) (b : store) (f : afield) (i j : Z) : seen F :=
  look_in v (oA o f) (blk b (inl f)) i j.
Definition look_n (v : view) (o : obj) (b : store) (f : nfield) (i : Z) : seen Z :=
  look_in v (oN o f) (blk b (inr f)) i 0.

(** The calls considered: assigning attributes, and run(). *)
Definition call_prog (c : call S) : option (prog S unit) :=
  match c with
  | PutInt f v => if rw_int f && in_int v then Some (seti f v) else None
  | PutBool f v => if rw_bool f then Some (setb f v) else None
  | PutFlt f v => if rw_flt f then Some (setf f v) else None
  | PutInts f n g => if rw_ints f then Some (setn f (tab (Z.of_nat n) g)) else None
  | PutArr f r c g => if rw_arr f && negb (is_vector f && negb (c =? 1)%nat) then Some (setarr f (tabm (Z.of_nat r) (Z.of_nat c) g)) else None
  | Run => Some (bx_run S)
  | _ => None
  end.
(** One after the other; [os] are the objects after each of them. *)
Inductive calls : list (call S) -> list obj -> obj -> store -> obj -> store -> Prop :=
| calls_nil o b : calls [] [] o b o b
| calls_cons c p l os o b o1 ev o2 b2 : call_prog c = Some p -> run p o = ROk tt o1 ev ->
    calls l os o1 (track p o b) o2 b2 -> calls (c :: l) (o1 :: os) o b o2 b2.

(** The numbers in use are below the next one. *)
Definition fits (b : store) : Prop := forall m, blk b m < blkNext b.
End View.
Arguments size {S}. Arguments track {S A}. Arguments get_view {S}. Arguments look {S}. Arguments look_n {S}. Arguments call_prog {S}. Arguments calls {S}.
Arguments Value {T}. Arguments IndexError {T}. Arguments Freed {T}.

(** NetCDF files, the library calls the code makes, and programs that do input and output. *)
From Coq Require Import ZArith List String Ascii Bool.
From Verif Require Import Scalar Prog.
Import ListNotations.
Local Open Scope Z_scope.

Section Nc.
Variable S : Scalar.
Notation obj := (obj S).
Notation prog := (prog S).
Notation event := (event S).
Notation F := (F S).

(** ** Files

    A NetCDF classic file: named dimensions and named variables.  Simplifications: the types
    are NC_INT, NC_DOUBLE and NC_CHAR; variables and dimensions are identified by their names
    (the library numbers them); a cell is [None] if what was written there was indeterminate. *)
Inductive ncval : Type :=
| VInt (l : list (option Z))
| VDbl (l : list (option F))
| VChar (s : string).
Record ncvar : Type := mkVar {
  vr_name : string; vr_dims : list string; vr_atts : list (string * string); vr_val : ncval }.
Record ncfile : Type := mkFile { nf_dims : list (string * Z); nf_vars : list ncvar }.

(** What a name in the file system refers to.  [Torn]: a file that was created but not
    closed properly. *)
Inductive disk : Type := Whole (f : ncfile) | Torn.

Definition lookup {T} (l : list (string * T)) (x : string) : option T :=
  match find (fun p => String.eqb (fst p) x) l with Some p => Some (snd p) | None => None end.
Definition find_var (f : ncfile) (x : string) : option ncvar :=
  find (fun v => String.eqb (vr_name v) x) (nf_vars f).

(** ** The world

    The object, the file system, the NetCDF files the process has open, what was printed, and
    what the environment does to the library calls still to be made: each one can work, fail
    (disk full, I/O error, permission, ...), or be the moment at which the process is killed.
    Calls beyond the list work.  A failing call has no effect. *)
Inductive verdict : Set := Fine | Fail (msg : string) | Die.
Inductive hnd : Type := Reading (f : ncfile) | Writing (name : string) (f : ncfile).
Record world : Type := mkW {
  wO : obj;
  wFS : string -> option disk;
  wOpen : list (Z * hnd);
  wNext : Z;                    (* number of the next file to be opened *)
  wQ : list verdict;
  wEv : list event
}.
Definition setO (w : world) (o : obj) : world := mkW o (wFS w) (wOpen w) (wNext w) (wQ w) (wEv w).
Definition setFS (w : world) (x : string) (d : disk) : world :=
  mkW (wO w) (fun y => if String.eqb y x then Some d else wFS w y) (wOpen w) (wNext w) (wQ w) (wEv w).
Definition setQ (w : world) (q : list verdict) : world := mkW (wO w) (wFS w) (wOpen w) (wNext w) q (wEv w).
Definition setOpen (w : world) (l : list (Z * hnd)) : world := mkW (wO w) (wFS w) l (wNext w) (wQ w) (wEv w).
Definition addEv (w : world) (e : list event) : world :=
  mkW (wO w) (wFS w) (wOpen w) (wNext w) (wQ w) (wEv w ++ e).

Definition handle (w : world) (h : Z) : option hnd :=
  match find (fun p => fst p =? h) (wOpen w) with Some p => Some (snd p) | None => None end.
Definition put_handle (w : world) (h : Z) (x : hnd) : world :=
  setOpen w (map (fun p => if fst p =? h then (h, x) else p) (wOpen w)).
Definition drop_handle (w : world) (h : Z) : world :=
  setOpen w (filter (fun p => negb (fst p =? h)) (wOpen w)).
Definition new_handle (w : world) (x : hnd) : Z * world :=
  (wNext w, mkW (wO w) (wFS w) ((wNext w, x) :: wOpen w) (wNext w + 1) (wQ w) (wEv w)).

(** ** Programs with input and output *)
Inductive ires (A : Type) : Type :=
| IOk (a : A) (w : world)
| IThrow (msg : string) (w : world)
| IUB (why : string)
| IDie (w : world).
Arguments IOk {A}. Arguments IThrow {A}. Arguments IUB {A}. Arguments IDie {A}.
Definition io (A : Type) : Type := world -> ires A.
Definition iret {A} (a : A) : io A := fun w => IOk a w.
Definition ibind {A B} (m : io A) (k : A -> io B) : io B := fun w =>
  match m w with
  | IOk a w' => k a w'
  | IThrow e w' => IThrow e w'
  | IUB y => IUB y
  | IDie w' => IDie w'
  end.
Definition ithrow {A} (msg : string) : io A := fun w => IThrow msg w.
Definition iub {A} (why : string) : io A := fun _ => IUB why.
(** [try { m } catch (std::runtime_error) { }] *)
Definition itry (m : io unit) : io unit := fun w =>
  match m w with IThrow _ w' => IOk tt w' | r => r end.
(** A program on the object. *)
Definition lift {A} (p : prog A) : io A := fun w =>
  match run p (wO w) with
  | ROk a o ev => IOk a (addEv (setO w o) ev)
  | RThrow m o ev => IThrow m (addEv (setO w o) ev)
  | RUB y => IUB y
  end.
Definition say (tag : string) (zs : list Z) (xs : list F) : io unit := fun w => IOk tt (addEv w [mkEv tag zs xs]).

(** The result of a library call: an error, or a value. *)
Inductive code (A : Type) : Type := Err (msg : string) | Good (a : A).
Arguments Err {A}. Arguments Good {A}.
Definition call {A} (f : world -> ires (code A)) : io (code A) := fun w =>
  match wQ w with
  | [] => f w
  | Fine :: q => f (setQ w q)
  | Fail m :: q => IOk (Err m) (setQ w q)
  | Die :: q => IDie (setQ w q)
  end.

(** ** The library *)

(** nc_open(..., NC_NOWRITE).  What a torn file contains is not specified. *)
Definition nc_open (x : string) : io (code Z) := call (fun w =>
  match wFS w x with
  | None => IOk (Err "No such file or directory") w
  | Some Torn => IUB "contents of a file that was not closed properly"
  | Some (Whole f) => let '(h, w') := new_handle w (Reading f) in IOk (Good h) w'
  end).
(** nc_inq *)
Definition nc_inq (h : Z) : io (code unit) := call (fun w => IOk (Good tt) w).
(** nc_inq_dimid and nc_inq_dimlen, nc_inq_varid on a file being read or written *)
Definition contents (w : world) (h : Z) : option ncfile :=
  match handle w h with Some (Reading f) => Some f | Some (Writing _ f) => Some f | None => None end.
Definition nc_inq_dimid (h : Z) (x : string) : io (code unit) := call (fun w =>
  match contents w h with
  | None => IOk (Err "NetCDF: Not a valid ID") w
  | Some f => match lookup (nf_dims f) x with
              | None => IOk (Err "NetCDF: Invalid dimension ID or name") w
              | Some _ => IOk (Good tt) w
              end
  end).
Definition nc_inq_dimlen (h : Z) (x : string) : io (code Z) := call (fun w =>
  match contents w h with
  | None => IOk (Err "NetCDF: Not a valid ID") w
  | Some f => match lookup (nf_dims f) x with
              | None => IOk (Err "NetCDF: Invalid dimension ID or name") w
              | Some n => IOk (Good n) w
              end
  end).
Definition nc_inq_varid (h : Z) (x : string) : io (code unit) := call (fun w =>
  match contents w h with
  | None => IOk (Err "NetCDF: Not a valid ID") w
  | Some f => match find_var f x with
              | None => IOk (Err "NetCDF: Variable not found") w
              | Some _ => IOk (Good tt) w
              end
  end).

(** The conversions of nc_get_var_double and nc_get_var_int; the bool tells that a value did
    not fit (NC_ERANGE), which the library reports after transferring everything. *)
Definition to_dbl (v : ncval) : option (list (option F) * bool) :=
  match v with
  | VDbl l => Some (l, false)
  | VInt l => Some (map (option_map (fofZ S)) l, false)
  | VChar _ => None
  end.
Definition int_cell (c : option F) : option Z * bool :=
  match c with
  | None => (None, false)
  | Some x => match ftoZ S x with
              | Some z => if in_int z then (Some z, false) else (None, true)
              | None => (None, true)
              end
  end.
Definition to_int (v : ncval) : option (list (option Z) * bool) :=
  match v with
  | VInt l => Some (l, false)
  | VDbl l => Some (map (fun c => fst (int_cell c)) l, existsb (fun c => snd (int_cell c)) l)
  | VChar _ => None
  end.
(** nc_get_var_*: the whole variable is copied to the front of the caller's buffer, whose
    size the library does not know.  Returns the error, if any, and the buffer. *)
Definition nc_get {T} (conv : ncval -> option (list (option T) * bool)) (h : Z) (x : string) (buf : list (option T)) :
    io (code (option string * list (option T))) := call (fun w =>
  match contents w h with
  | None => IOk (Good (Some "NetCDF: Not a valid ID"%string, buf)) w
  | Some f => match find_var f x with
      | None => IOk (Good (Some "NetCDF: Variable not found"%string, buf)) w
      | Some v => match conv (vr_val v) with
          | None => IOk (Good (Some "NetCDF: Attempt to convert between text & numbers"%string, buf)) w
          | Some (l, rng) =>
              if (List.length buf <? List.length l)%nat then IUB "buffer overflow"
              else IOk (Good (if rng then Some "NetCDF: Numeric conversion not representable"%string else None,
                              l ++ skipn (List.length l) buf)) w
          end
      end
  end).
(** nc_close *)
Definition nc_close (h : Z) : io (code unit) := call (fun w =>
  match handle w h with
  | None => IOk (Err "NetCDF: Not a valid ID") w
  | Some (Reading _) => IOk (Good tt) (drop_handle w h)
  | Some (Writing x f) => IOk (Good tt) (setFS (drop_handle w h) x (Whole f))
  end).

(** nc_create(..., NC_CLOBBER): truncates an existing file. *)
Definition nc_create (x : string) : io (code Z) := call (fun w =>
  let '(h, w') := new_handle (setFS w x Torn) (Writing x (mkFile [] [])) in IOk (Good h) w').
Definition define {A} (h : Z) (f : ncfile -> code (A * ncfile)) : io (code A) := call (fun w =>
  match handle w h with
  | Some (Writing x g) =>
      match f g with
      | Err m => IOk (Err m) w
      | Good (a, g') => IOk (Good a) (put_handle w h (Writing x g'))
      end
  | _ => IOk (Err "NetCDF: Not a valid ID") w
  end).
(** nc_def_dim.  Length 0 is NC_UNLIMITED, of which a classic file can have one; such a
    dimension has length 0 as long as no record is written, and nc_put_var writes none.  The
    length is a size_t: a negative int becomes too large.  2^31-4 is the limit of the format. *)
Definition nc_def_dim (h : Z) (x : string) (n : Z) : io (code unit) := define h (fun f =>
  if (n <? 0) || (2147483644 <? n) then Err "NetCDF: Invalid dimension size"
  else if (n =? 0) && existsb (fun p => snd p =? 0) (nf_dims f) then Err "NetCDF: NC_UNLIMITED size already in use"
  else match lookup (nf_dims f) x with
       | Some _ => Err "NetCDF: String match to name in use"
       | None => Good (tt, mkFile (nf_dims f ++ [(x, n)]) (nf_vars f))
       end).
(** nc_def_var, with an empty value; the dimensions must exist and only the first can be the
    unlimited one *)
Definition nc_def_var (h : Z) (x : string) (ds : list string) (v : ncval) : io (code unit) := define h (fun f =>
  match find_var f x with
  | Some _ => Err "NetCDF: String match to name in use"
  | None =>
      if forallb (fun d => match lookup (nf_dims f) d with Some _ => true | None => false end) ds then
        if existsb (fun d => match lookup (nf_dims f) d with Some 0 => true | _ => false end) (tl ds)
        then Err "NetCDF: NC_UNLIMITED in the wrong index"
        else Good (tt, mkFile (nf_dims f) (nf_vars f ++ [mkVar x ds [] v]))
      else Err "NetCDF: Invalid dimension ID or name"
  end).
Definition upd_var (f : ncfile) (x : string) (g : ncvar -> ncvar) : ncfile :=
  mkFile (nf_dims f) (map (fun v => if String.eqb (vr_name v) x then g v else v) (nf_vars f)).
Definition nc_put_att_text (h : Z) (x a t : string) : io (code unit) := define h (fun f =>
  Good (tt, upd_var f x (fun v => mkVar (vr_name v) (vr_dims v) (vr_atts v ++ [(a, t)]) (vr_val v)))).
Definition nc_enddef (h : Z) : io (code unit) := call (fun w => IOk (Good tt) w).
(** The number of elements of a variable *)
Definition vlen (f : ncfile) (ds : list string) : Z :=
  fold_right (fun d n => match lookup (nf_dims f) d with Some m => m * n | None => 0 end) 1 ds.
(** nc_put_var_*: reads as many elements from the buffer as the variable has; [get n] is the
    first n of them, if there are that many. *)
Definition nc_put_var (h : Z) (x : string) (get : world -> Z -> option ncval) : io (code unit) := call (fun w =>
  match handle w h with
  | Some (Writing name f) =>
      match find_var f x with
      | None => IOk (Err "NetCDF: Variable not found") w
      | Some v =>
          match get w (vlen f (vr_dims v)) with
          | None => IUB "the writer reads outside a live buffer"
          | Some y => IOk (Good tt)
              (put_handle w h (Writing name (upd_var f x (fun v => mkVar (vr_name v) (vr_dims v) (vr_atts v) y))))
          end
      end
  | _ => IOk (Err "NetCDF: Not a valid ID") w
  end).

End Nc.
Arguments VInt {S}. Arguments VDbl {S}. Arguments VChar {S}.
Arguments mkVar {S}. Arguments vr_name {S}. Arguments vr_dims {S}. Arguments vr_atts {S}. Arguments vr_val {S}.
Arguments mkFile {S}. Arguments nf_dims {S}. Arguments nf_vars {S}.
Arguments Whole {S}. Arguments Torn {S}. Arguments find_var {S}.
Arguments Reading {S}. Arguments Writing {S}.
Arguments mkW {S}. Arguments wO {S}. Arguments wFS {S}. Arguments wOpen {S}. Arguments wNext {S}.
Arguments wQ {S}. Arguments wEv {S}.
Arguments setO {S}. Arguments setFS {S}. Arguments setQ {S}. Arguments setOpen {S}. Arguments addEv {S}.
Arguments handle {S}. Arguments put_handle {S}. Arguments drop_handle {S}. Arguments new_handle {S}.
Arguments IOk {S A}. Arguments IThrow {S A}. Arguments IUB {S A}. Arguments IDie {S A}.
Arguments iret {S A}. Arguments ibind {S A B}. Arguments ithrow {S A}. Arguments iub {S A}. Arguments itry {S}.
Arguments lift {S A}. Arguments say {S}.
Arguments Err {A}. Arguments Good {A}. Arguments call {S A}.
Arguments nc_open {S}. Arguments nc_inq {S}. Arguments contents {S}. Arguments nc_inq_dimid {S}.
Arguments nc_inq_dimlen {S}. Arguments nc_inq_varid {S}. Arguments to_dbl {S}. Arguments to_int {S}.
Arguments int_cell {S}. Arguments nc_get {S T}. Arguments nc_close {S}. Arguments nc_create {S}.
Arguments define {S A}. Arguments nc_def_dim {S}. Arguments nc_def_var {S}. Arguments upd_var {S}.
Arguments nc_put_att_text {S}. Arguments nc_enddef {S}. Arguments vlen {S}. Arguments nc_put_var {S}.

Declare Scope io_scope.
Delimit Scope io_scope with io.
Notation "x <- p ;; q" := (ibind p (fun x => q))
  (at level 61, p at next level, right associativity) : io_scope.
Notation "' pat <- p ;; q" := (ibind p (fun x => match x with pat => q end))
  (at level 61, pat pattern, p at next level, right associativity) : io_scope.
Notation "p ;;; q" := (ibind p (fun _ => q))
  (at level 61, right associativity) : io_scope.

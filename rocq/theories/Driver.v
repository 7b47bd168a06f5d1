(** driver.cpp (the executable xbooz_xform) and _cli.py (the script of the same name).

    The control file is given as its text, [None] if it cannot be opened: it is read completely
    before anything else happens, and no other file is concerned.  A text is a list of bytes. *)
From Coq Require Import ZArith List String Ascii Bool.
From Verif Require Import Scalar Prog Model Vmec Nc NcModel.
Import ListNotations.
Local Open Scope Z_scope.

(** ** Characters *)

(** std::isspace in the "C" locale: space, \t, \n, \v, \f, \r *)
Definition c_space (c : ascii) : bool :=
  let n := nat_of_ascii c in (n =? 32)%nat || ((9 <=? n)%nat && (n <=? 13)%nat).
(** str.isspace for the characters below 128: also the separators 28-31.  (Not modelled: text
    with other characters, which Python decodes first.) *)
Definition py_space (c : ascii) : bool :=
  let n := nat_of_ascii c in c_space c || ((28 <=? n)%nat && (n <=? 31)%nat).
Definition digit (c : ascii) : option Z :=
  let n := nat_of_ascii c in
  if (48 <=? n)%nat && (n <=? 57)%nat then Some (Z.of_nat n - 48) else None.
Definition is_digit (c : ascii) : bool := match digit c with Some _ => true | None => false end.

(** ** Formatted input with operator>>, as in libstdc++ *)

(** The characters not yet read, and the fail bit.  (The eof bit makes the next extraction fail;
    so does an empty rest.) *)
Record ins : Type := mkIns { rest : string; bad : bool }.
Fixpoint skip_ws (s : string) : string :=
  match s with
  | EmptyString => EmptyString
  | String c t => if c_space c then skip_ws t else s
  end.
(** The digits at the front, most significant first: value and what follows. *)
Fixpoint digits (s : string) (acc : Z) : Z * string :=
  match s with
  | EmptyString => (acc, EmptyString)
  | String c t => match digit c with Some d => digits t (10 * acc + d) | None => (acc, s) end
  end.
Definition sign (s : string) : bool * string :=
  match s with
  | String "-" t => (true, t)
  | String "+" t => (false, t)
  | _ => (false, s)
  end.
(** [file >> x] for an int x whose value is [old].  If the stream has failed or only white space
    is left, x is not assigned; if no digit is found, it is set to 0; if the number does not fit,
    to the nearest int.  In all three cases the stream fails. *)
Definition next_int (s : ins) (old : option Z) : option Z * ins :=
  if bad s then (old, s)
  else match skip_ws (rest s) with
       | EmptyString => (old, mkIns EmptyString true)
       | t =>
           let '(neg, u) := sign t in
           match u with
           | String c _ =>
               if is_digit c then
                 let '(v, r) := digits u 0 in
                 let z := if neg : bool then - v else v in
                 if in_int z then (Some z, mkIns r false)
                 else (Some (if neg then INT_MIN else INT_MAX), mkIns r true)
               else (Some 0, mkIns u true)
           | EmptyString => (Some 0, mkIns u true)
           end
       end.
(** [file >> x] for a std::string: the characters up to the next white space. *)
Fixpoint word (space : ascii -> bool) (s : string) : string * string :=
  match s with
  | EmptyString => (EmptyString, EmptyString)
  | String c t => if space c then (EmptyString, s) else let '(a, r) := word space t in (String c a, r)
  end.
Definition next_word (s : ins) (old : string) : string * ins :=
  if bad s then (old, s)
  else match skip_ws (rest s) with
       | EmptyString => (old, mkIns EmptyString true)
       | t => let '(a, r) := word c_space t in (a, mkIns r false)
       end.

(** ** Sorting: std::sort and sorted().  The result of sorting ints does not depend on the
    algorithm. *)
Fixpoint insert (x : Z) (l : list Z) : list Z :=
  match l with
  | [] => [x]
  | y :: t => if x <=? y then x :: l else y :: insert x t
  end.
Fixpoint sort (l : list Z) : list Z := match l with [] => [] | x :: t => insert x (sort t) end.

(** ** Python *)

(** str.split() *)
Fixpoint split (fuel : nat) (s : string) : list string :=
  match fuel with
  | O => []
  | Datatypes.S fuel =>
      match s with
      | EmptyString => []
      | String c t =>
          if py_space c then split fuel t
          else let '(a, r) := word py_space s in a :: split fuel r
      end
  end.
(** int(token): an optional sign and digits, between which single underscores can stand.
    [None] is ValueError.  (Not modelled: the limit of 4300 digits of newer versions.) *)
Fixpoint py_digits (s : string) (acc : Z) : option Z :=
  match s with
  | EmptyString => None
  | String c t =>
      match digit c with
      | None => None
      | Some d =>
          match t with
          | EmptyString => Some (10 * acc + d)
          | String "_" u => py_digits u (10 * acc + d)
          | _ => py_digits t (10 * acc + d)
          end
      end
  end.
Definition py_int (s : string) : option Z :=
  let '(neg, u) := sign s in
  option_map (fun v => if neg : bool then - v else v) (py_digits u 0).

Section Driver.
Variable S : Scalar.
Notation obj := (obj S).
Notation prog := (prog S).
Notation world := (world S).
Notation io := (io S).
Local Open Scope io_scope.

(** Reading an int variable that may be indeterminate *)
Definition ival (x : option Z) : io Z :=
  match x with Some z => iret z | None => iub "indeterminate local int" end.

(** An IntVector with the elements of a list *)
Definition int_array (l : list Z) : narr := mkArr (Z.of_nat (List.length l)) 1 (map Some l).

(** ** driver.cpp *)

(** The loop of lines 58-68.  Each turn but the last takes at least one character, so that
    [fuel] = the number of characters + 1 turns are enough. *)
Fixpoint read_surfs (fuel : nat) (s : ins) (val : option Z) (acc : list Z) : io (list Z) :=
  match fuel with
  | O => iub "not reached: more numbers than characters"
  | Datatypes.S fuel =>
      let '(val, s) := next_int s val in
      if bad s then say "Unable to read more." [] [] ;;; iret acc
      else v <- ival val ;; say "Read value" [v] [] ;;; read_surfs fuel s val (acc ++ [v])
  end.
(** Lines 42-73 *)
Definition driver_read (argv1 : string) (ctl : option string) : io (Z * Z * string * list Z) :=
  match ctl with
  | None => ithrow ("Unable to open input file " ++ argv1)
  | Some text =>
      let '(mboz_in, s) := next_int (mkIns text false) None in
      let '(nboz_in, s) := next_int s None in
      m <- ival mboz_in ;; n <- ival nboz_in ;; say "Read mboz, nboz" [m; n] [] ;;;
      if bad s then ithrow "Unable to read mboz and nboz" else
      let '(extension, s) := next_word s EmptyString in
      say ("Read extension = " ++ extension) [] [] ;;;
      if bad s then ithrow "Unable to read extension" else
      l <- read_surfs (Datatypes.S (String.length text)) s None [] ;;
      say "Read compute_surfs" l [] ;;;
      iret (m, n, extension, l)
  end.
(** Lines 77-104.  The object is a local variable. *)
Definition driver_work (version : string) (r : Z * Z * string * list Z) : io Z :=
  let '(mboz_in, nboz_in, extension, compute_surfs) := r in
  setobj S (obj_new S) ;;;
  read_wout S ("wout_" ++ extension ++ ".nc") false ;;;
  m <- lift (geti I_mboz) ;; lift (seti I_mboz (Z.max m mboz_in)) ;;;
  n <- lift (geti I_nboz) ;; lift (seti I_nboz (Z.max n nboz_in)) ;;;
  match compute_surfs with
  | [] => say "No compute_surfs specified, so including all half-grid surfaces." [] []
  | _ => lift (setn N_compute_surfs (int_array (sort compute_surfs)))
  end ;;;
  l <- lift (elems_n S N_compute_surfs) ;; say "About to run transformation with compute_surfs" l [] ;;;
  lift (bx_run S) ;;;
  write_boozmn S version ("boozmn_" ++ extension ++ ".nc") ;;;
  say "Good bye." [] [] ;;; iret 0.
Definition driver (version : string) (args : list string) (ctl : option string) : io Z :=
  match args with
  | [a] => say ("This is xbooz_xform " ++ version) [] [] ;;; r <- driver_read a ctl ;; driver_work version r
  | _ => say "Usage" [] [] ;;; iret 0
  end.

(** ** _cli.py.  A Python exception is [ithrow]. *)

(** Lines 71-79 *)
Fixpoint cli_surfs (tokens : list string) (acc : list Z) : io (list Z) :=
  match tokens with
  | [] => iret acc
  | t :: tokens =>
      match py_int t with
      | None => say "Unable to read more." [] [] ;;; iret acc
      | Some v => say "Read value" [v] [] ;;; cli_surfs tokens (acc ++ [v])
      end
  end.
(** _parse_input_file, lines 45-81 *)
Definition cli_read (filename : string) (ctl : option string) : io (Z * Z * string * list Z) :=
  match ctl with
  | None => ithrow "FileNotFoundError"
  | Some text =>
      match split (Datatypes.S (String.length text)) text with
      | a :: b :: extension :: tokens =>
          match py_int a, py_int b with
          | Some mboz, Some nboz =>
              say "Read mboz, nboz" [mboz; nboz] [] ;;;
              say ("Read extension = " ++ extension) [] [] ;;;
              l <- cli_surfs tokens [] ;; iret (mboz, nboz, extension, l)
          | _, _ => ithrow "Unable to read mboz and nboz"
          end
      | _ => ithrow ("Unable to read mboz, nboz, and extension from " ++ filename)
      end
  end.
(** Assigning to an int member, whose value was [old], through pybind11 raises TypeError if the
    value does not fit; [old] does.  What assigning a list with such numbers to an Eigen member does
    depends on NumPy; [conv] is that conversion, [None] an exception. *)
Definition py_seti (f : ifield) (old v : Z) : io unit :=
  if (v =? old) || in_int v then lift (seti f v) else ithrow "TypeError: incompatible argument".
Section Conv.
Variable conv : list Z -> option (list Z).
(** main, lines 84-117 *)
Definition cli_work (version : string) (r : Z * Z * string * list Z) : io Z :=
  let '(mboz, nboz, extension, compute_surfs) := r in
  setobj S (obj_new S) ;;;
  read_wout S ("wout_" ++ extension ++ ".nc") false ;;;
  m <- lift (geti I_mboz) ;; py_seti I_mboz m (Z.max m mboz) ;;;
  n <- lift (geti I_nboz) ;; py_seti I_nboz n (Z.max n nboz) ;;;
  match compute_surfs with
  | [] => say "No compute_surfs specified, so including all half-grid surfaces." [] []
  | _ => match conv (sort compute_surfs) with
         | Some l => lift (setn N_compute_surfs (int_array l))
         | None => ithrow "exception in the conversion to an array"
         end
  end ;;;
  l <- lift (elems_n S N_compute_surfs) ;; say "About to run transformation with compute_surfs" l [] ;;;
  lift (bx_run S) ;;;
  write_boozmn S version ("boozmn_" ++ extension ++ ".nc") ;;;
  say "Good bye." [] [] ;;; iret 0.
(** [pyversion] is __version__, [version] that of the compiled module. *)
Definition cli (version pyversion : string) (args : list string) (ctl : option string) : io Z :=
  match args with
  | [a] => say ("This is xbooz_xform " ++ pyversion) [] [] ;;; r <- cli_read a ctl ;; cli_work version r
  | _ => say "Usage" [] [] ;;; iret 0
  end.
End Conv.
End Driver.

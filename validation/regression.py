#!/usr/bin/env python3
"""Run the Coq model on the project's own regression data.

This is a test of the model, not a proof.  It repeats tests/test_regression.py of the
project with the model in place of the compiled library: the definitions read_wout,
bx_run, write_boozmn and read_boozmn of rocq/theories are extracted to OCaml, with OCaml's
floats (IEEE binary64) as the scalars, run on the wout files in /repo/tests/test_files, and
the file that write_boozmn leaves is compared, variable by variable, with the reference
boozmn file there.  Tolerances and exclusions are those of test_regression.py.

usage: regression.py CASE...      (run `make` in /verif/rocq first)

A CASE is `reading` (read_boozmn on the reference files), `programs` (the end-to-end test
of tests/test_cli.py, with the models of driver.cpp and of _cli.py), or CONFIGURATION:FLUX
or CONFIGURATION:FLUX:I,J,... where FLUX is 0 or 1 and I,J,... are positions in the reference
file's jlist (default: all of them), for example circular_tokamak:1 or li383_1.4m:1:0 .  A
tokamak takes seconds, one surface of the others several minutes.

What stands in for Coq definitions in the extracted program, and is therefore trusted by
this test: Z and nat become OCaml integers, strings OCaml strings, lists the arrays with
old versions of module Fl, with znth, zset, zrepeat, List.length, updA and updI replaced by
faster equivalents.  Everything else is what Coq extracts from the model.
"""
import os, struct, subprocess, sys, tempfile, time

HERE = os.path.dirname(os.path.abspath(__file__))
THEORIES = os.environ.get("THEORIES", os.path.join(HERE, "..", "rocq", "theories"))
FILES = '/repo/tests/test_files/'

FL = r'''
(* Lists with fast indexing: versions of arrays (the newest owns the array, older
   ones record what they had), with views for tails. *)
type 'a t = E | N of 'a cell
and 'a cell = { mutable st : 'a st }
and 'a st =
  | Cons of 'a * 'a t
  | Arr of 'a array
  | Diff of int * 'a * 'a cell     (* as the other one, except at one index *)
  | Tail of 'a array * int         (* of an array that nobody changes any more *)
let cons (x, l) = N { st = Cons (x, l) }
let rec force (c : 'a cell) : 'a array =
  match c.st with
  | Arr a -> a
  | Tail (a, k) -> let b = Array.sub a k (Array.length a - k) in c.st <- Arr b; b
  | Cons _ ->
      let rec go c acc = match c.st with
        | Cons (x, E) -> x :: acc
        | Cons (x, N r) -> go r (x :: acc)
        | _ -> Array.fold_left (fun acc x -> x :: acc) acc (force c) in
      let b = Array.of_list (List.rev (go c [])) in c.st <- Arr b; b
  | Diff _ ->
      let rec path c acc = match c.st with
        | Diff (i, x, r) -> path r ((i, x) :: acc)
        | _ -> (Array.copy (force c), acc) in
      let b, ds = path c [] in
      List.iter (fun (i, x) -> b.(i) <- x) ds; c.st <- Arr b; b
let case fn fc l =
  match l with
  | E -> fn ()
  | N c ->
  match c.st with
  | Cons (x, r) -> fc x r
  | Tail (a, k) -> if k >= Array.length a then fn () else fc a.(k) (N { st = Tail (a, k + 1) })
  | _ -> let a = force c in
      if Array.length a = 0 then fn () else fc a.(0) (N { st = Tail (Array.copy a, 1) })
let znth l i = match l with
  | E -> None
  | N c -> let a = force c in if i < 0 || i >= Array.length a then None else Some a.(i)
let zset l i x = match l with
  | E -> E
  | N c ->
    let a = force c in
    let i = if i < 0 then 0 else i in
    if i >= Array.length a then l
    else begin
      let old = a.(i) in
      a.(i) <- x; let r = { st = Arr a } in c.st <- Diff (i, old, r); N r
    end
let zrepeat x n = if n <= 0 then E else N { st = Arr (Array.make n x) }
let length l = match l with
  | E -> 0
  | N c -> match c.st with Tail (a, k) -> Array.length a - k | _ -> Array.length (force c)
let of_list l = match l with [] -> E | _ -> N { st = Arr (Array.of_list l) }
let to_list l = match l with E -> [] | N c -> Array.to_list (force c)
'''

EXTRACT = r'''
From Coq Require Import ZArith QArith List String Extraction ExtrOcamlBasic ExtrOcamlZInt ExtrOcamlNatInt ExtrOcamlNativeString.
From Verif Require Import Scalar Prog Model Vmec Nc NcModel Driver.
Extraction Language OCaml.
Extract Inductive list => "Fl.t" ["Fl.E" "Fl.cons"] "Fl.case".
Extract Constant Prog.znth => "Fl.znth".
Extract Constant Prog.zset => "Fl.zset".
Extract Constant Prog.zrepeat => "Fl.zrepeat".
Extract Inlined Constant List.length => "Fl.length".
Extract Constant Prog.updA => "(fun _ o f v -> let t = Array.init 43 (fun i -> o.oA (Obj.magic i : afield)) in t.((Obj.magic f : int)) <- v; { o with oA = (fun g -> t.((Obj.magic g : int))) })".
Extract Constant Prog.updI => "(fun _ o f v -> let t = Array.init 18 (fun i -> o.oI (Obj.magic i : ifield)) in t.((Obj.magic f : int)) <- v; { o with oI = (fun g -> t.((Obj.magic g : int))) })".
Extraction "model.ml" mkScalar obj_new read_wout read_boozmn write_boozmn bx_run seti setn lift driver cli.
'''

MAIN = r'''
(* usage: main WOUT.txt FLUX MBOZ NBOZ SURFS(comma) OUT.txt *)
open Model
let r (x : float) : Obj.t = Obj.repr x
let d (x : Obj.t) : float = Obj.obj x
let m = Obj.magic
let s : scalar = {
  fadd = m (fun x y -> x +. y); fsub = m (fun x y -> x -. y);
  fmul = m (fun x y -> x *. y); fdiv = m (fun x y -> x /. y);
  fneg = m (fun x -> -. x); fofZ = m (fun i -> float_of_int i);
  flit = m (fun q -> float_of_int q.qnum /. float_of_int q.qden);
  fpi = m (4.0 *. atan 1.0); fsqrt = m sqrt; fcos = m cos; fsin = m sin;
  fabs = m abs_float; flt = m (fun (x : float) y -> x < y);
  ftoZ = m (fun x -> if abs_float x < 9e18 then Some (int_of_float x) else None) }
let words l = List.filter (fun x -> x <> "") (String.split_on_char ' ' l)
let unhex h = String.init (String.length h / 2) (fun i -> Char.chr (int_of_string ("0x" ^ String.sub h (2 * i) 2)))
let hex t = String.concat "" (List.map (fun c -> Printf.sprintf "%02x" (Char.code c)) (List.of_seq (String.to_seq t)))
let rec take n l = if n = 0 then ([], l) else match l with x :: q -> let a, b = take (n - 1) q in (x :: a, b) | [] -> failwith "short"
let load path =
  let ic = open_in path in
  let dims = ref [] and vars = ref [] in
  (try while true do
    match words (input_line ic) with
    | "D" :: n :: k :: [] -> dims := (n, int_of_string k) :: !dims
    | "V" :: n :: t :: nd :: rest ->
        let ds, rest = take (int_of_string nd) rest in
        let v = match t with
          | "i" -> VInt (Fl.of_list (List.map (fun x -> Some (int_of_string x)) rest))
          | "d" -> VDbl (Fl.of_list (List.map (fun x -> Some (m (float_of_string x))) rest))
          | _ -> VChar (match rest with [h] -> unhex h | _ -> "") in
        vars := { vr_name = n; vr_dims = Fl.of_list ds; vr_atts = Fl.of_list []; vr_val = v } :: !vars
    | _ -> failwith "bad line"
  done with End_of_file -> close_in ic);
  { nf_dims = Fl.of_list (List.rev !dims); nf_vars = Fl.of_list (List.rev !vars) }
let save path f =
  let oc = open_out path in
  List.iter (fun (n, k) -> Printf.fprintf oc "D %s %d\n" n k) (Fl.to_list f.nf_dims);
  List.iter (fun v ->
    let ds = Fl.to_list v.vr_dims in
    let t, xs = match v.vr_val with
      | VInt l -> "i", List.map (function Some k -> string_of_int k | None -> "?") (Fl.to_list l)
      | VDbl l -> "d", List.map (function Some x -> Printf.sprintf "%h" (m x : float) | None -> "?") (Fl.to_list l)
      | VChar t -> "c", [hex t] in
    Printf.fprintf oc "V %s %s %d %s\n" v.vr_name t (List.length ds) (String.concat " " (ds @ xs))) (Fl.to_list f.nf_vars);
  close_out oc
let ok what = function
  | IOk (_, w) -> w
  | IThrow (e, _) -> prerr_endline (what ^ " throws: " ^ e); exit 2
  | IUB e -> prerr_endline (what ^ " has undefined behaviour: " ^ e); exit 3
  | IDie _ -> prerr_endline (what ^ " dies"); exit 4
(* driver.cpp and _cli.py on the control file [text] *)
let programs f text =
  let w = { wO = obj_new s; wFS = (fun n -> if n = "wout_circular_tokamak.nc" then Some (Whole f) else None);
            wOpen = Fl.of_list []; wNext = 1; wQ = Fl.of_list []; wEv = Fl.of_list [] } in
  let out what r = match r with
    | IOk (0, w) -> (match w.wFS "boozmn_circular_tokamak.nc" with Some (Whole g) -> g | _ -> prerr_endline (what ^ ": no file"); exit 5)
    | IOk (k, _) -> prerr_endline (what ^ ": status " ^ string_of_int k); exit 6
    | _ -> ignore (ok what r); exit 7 in
  let args = Fl.of_list ["in_booz"] in
  let g = out "driver" (driver s "\"\"" args (Some text) w) in
  let h = out "cli" (cli s (fun l -> Some l) "\"\"" "" args (Some text) w) in
  save (Sys.argv.(6) ^ ".driver") g; save (Sys.argv.(6) ^ ".cli") h
let () =
  let a = Sys.argv in
  let f = load a.(1) in
  if a.(2) = "read" then begin
    let w = { wO = obj_new s; wFS = (fun _ -> Some (Whole f));
              wOpen = Fl.of_list []; wNext = 1; wQ = Fl.of_list []; wEv = Fl.of_list [] } in
    let w = ok "read_boozmn" (read_boozmn s "x" w) in
    List.iter (fun (n, x) -> print_string n;
      List.iter (function Some v -> Printf.printf " %h" (m v : float) | None -> print_string " ?") (Fl.to_list (w.wO.oA x).adata);
      print_newline ())
      [ "bmnc_b", A_bmnc_b; "rmnc_b", A_rmnc_b; "zmns_b", A_zmns_b; "gmn_b", A_gmnc_b;
        "bmns_b", A_bmns_b; "rmns_b", A_rmns_b; "zmnc_b", A_zmnc_b; "gmns_b", A_gmns_b ];
    exit 0 end;
  if a.(2) = "programs" then (programs f a.(3); exit 0);
  let w = { wO = obj_new s; wFS = (fun n -> if n = "wout" then Some (Whole f) else None);
            wOpen = Fl.of_list []; wNext = 1; wQ = Fl.of_list []; wEv = Fl.of_list [] } in
  let w = ok "read_wout" (read_wout s "wout" (a.(2) = "1") w) in
  let surfs = if a.(5) = "" then [] else List.map int_of_string (String.split_on_char ',' a.(5)) in
  let set p w = ok "set" (lift s p w) in
  let w = set (seti s I_mboz (int_of_string a.(3))) w in
  let w = set (seti s I_nboz (int_of_string a.(4))) w in
  let w = set (setn s N_compute_surfs { arows = List.length surfs; acols = 1; adata = Fl.of_list (List.map (fun k -> Some k) surfs) }) w in
  let w = ok "run" (lift s (bx_run s) w) in
  let w = ok "write_boozmn" (write_boozmn s "\"\"" "new" w) in
  match w.wFS "new" with
  | Some (Whole g) -> save a.(6) g;
      let w' = ok "read_boozmn" (read_boozmn s "new" { w with wO = obj_new s }) in
      (* what the file reader gives back, against the object that was written *)
      let same f1 = let x = (w.wO.oA f1).adata and y = (w'.wO.oA f1).adata in Fl.to_list x = Fl.to_list y in
      List.iter (fun (n, f1) -> Printf.printf "round trip %s: %b\n" n (same f1))
        [ "bmnc_b", A_bmnc_b; "rmnc_b", A_rmnc_b; "zmns_b", A_zmns_b; "gmnc_b", A_gmnc_b; "numns_b", A_numns_b;
          "bmns_b", A_bmns_b; "rmns_b", A_rmns_b; "zmnc_b", A_zmnc_b; "gmns_b", A_gmns_b; "numnc_b", A_numnc_b ]
  | _ -> prerr_endline "no file"; exit 5
'''


def read(path):
    """Read a classic NetCDF file (CDF-1, CDF-2)."""
    b=open(path,'rb').read(); assert b[:3]==b'CDF' and b[3] in(1,2); off8=b[3]==2; p=[4]
    def u4(): v=struct.unpack('>i',b[p[0]:p[0]+4])[0]; p[0]+=4; return v
    def off():
        if off8: v=struct.unpack('>q',b[p[0]:p[0]+8])[0]; p[0]+=8; return v
        return u4()
    def name(): n=u4(); s=b[p[0]:p[0]+n].decode(); p[0]+=(n+3)//4*4; return s
    SZ={1:1,2:1,3:2,4:4,5:4,6:8}; FM={1:'b',2:'c',3:'h',4:'i',5:'f',6:'d'}
    def vals(t,n,at): return struct.unpack('>%d%s'%(n,FM[t]),b[at:at+n*SZ[t]])
    numrecs=u4()
    def lst(tag,f):
        t=u4(); n=u4(); assert (t==tag) or (t==0 and n==0); return [f() for _ in range(n)]
    def att():
        n=name(); t=u4(); k=u4(); v=vals(t,k,p[0]); p[0]+=(k*SZ[t]+3)//4*4
        return n,(b''.join(v).decode('latin1') if t==2 else v)
    dims=lst(10,lambda:(name(),u4())); gatts=lst(12,att)
    def var():
        n=name(); nd=u4(); ds=[u4() for _ in range(nd)]; at=lst(12,att); t=u4(); vs=u4(); o=off(); return n,ds,at,t,vs,o
    out={}
    for n,ds,at,t,vs,o in lst(11,var):
        k=1
        for d in ds:
            assert dims[d][1]>0; k*=dims[d][1]
        v=vals(t,k,o)
        out[n]=dict(dims=[dims[d][0] for d in ds],atts=at,type=t,vals=(b''.join(v).decode('latin1') if t==2 else list(v)))
    return dict(dims=dims,gatts=gatts,vars=out)

def dump(f,path):
    with open(path,'w') as o:
        for n,k in f['dims']: o.write('D %s %d\n'%(n,k))
        for n,v in f['vars'].items():
            t=v['type']
            if t==2: k='c'; xs=[v['vals'].encode('latin1').hex()]
            elif t==4: k='i'; xs=map(str,v['vals'])
            else: k='d'; xs=[x.hex() for x in v['vals']]
            o.write('V %s %s %d %s\n'%(n,k,len(v['dims']),' '.join(list(v['dims'])+list(xs))))
def load(path):
    dims={};vs={}
    for l in open(path):
        w=l.split()
        if w[0]=='D': dims[w[1]]=int(w[2])
        else:
            nd=int(w[3]); ds=w[4:4+nd]; xs=w[4+nd:]
            if w[2]=='d': xs=[None if x=='?' else float.fromhex(x) for x in xs]
            elif w[2]=='i': xs=[None if x=='?' else int(x) for x in xs]
            else: xs=bytes.fromhex(xs[0]).decode('latin1') if xs else ''
            vs[w[1]]=dict(dims=ds,type=w[2],vals=xs)
    return dims,vs
def case(b,conf,flux,nsurf=None):
    ref=read(FILES+'boozmn_%s.nc'%conf); rv=ref['vars']; rd=dict(ref['dims'])
    dump(read(FILES+'wout_%s.nc'%conf),b+'wout.txt')
    jl=rv['jlist']['vals']; pick=list(range(len(jl))) if nsurf is None else nsurf
    t0=time.time()
    r=subprocess.run(['sh','-c','ulimit -s unlimited; exec "$@"','sh',b+'main',b+'wout.txt',str(flux),str(rv['mboz_b']['vals'][0]),str(rv['nboz_b']['vals'][0]),','.join(str(jl[i]-2) for i in pick),b+'out.txt'],capture_output=True,text=True)
    print(conf,'flux',flux,'surfaces',[jl[i] for i in pick],'%.0fs'%(time.time()-t0),'exit',r.returncode,r.stderr.strip())
    if r.returncode: return False
    bad=[l for l in r.stdout.split('\n') if l.startswith('round') and not l.endswith('true')]
    print('   read back differs:',bad)
    dims,vs=load(b+'out.txt')
    ex={'rmax_b','rmin_b','betaxis_b','version','beta_b'}|(set() if flux else {'pres_b','phip_b','phi_b'})
    worst=(0,'');good=True
    for n,v in rv.items():
        if n in ex: continue
        if n not in vs: print('   missing',n); good=False; continue
        a=v['vals'];c=vs[n]['vals']
        if nsurf is not None and n=='jlist': a=[a[i] for i in pick]
        elif nsurf is not None and len(v['dims'])==2:
            k=rd[v['dims'][1]]; a=[x for i in pick for x in a[i*k:(i+1)*k]]
        if v['type']==2:
            if a!=c: print('   text differs',n,repr(a),repr(c)); good=False
            continue
        if len(a)!=len(c): print('   length differs',n,len(a),len(c)); good=False; continue
        if any(x is None for x in c): print('   indeterminate',n,sum(x is None for x in c)); good=False; continue
        dmax=max((abs(x-y) for x,y in zip(a,c)),default=0)
        if dmax>worst[0]: worst=(dmax,n)
        if not all(abs(x-y)<=1e-12+1e-12*abs(y) for x,y in zip(a,c)): print('   DIFFERS',n,dmax); good=False
    print('  ','agrees' if good else 'DISAGREES','; largest difference',worst)
    return good


def programs(b):
    """RunDriverTest of tests/test_cli.py, for both programs; they also leave the same file."""
    dump(read(FILES+'wout_circular_tokamak.nc'),b+'wout.txt')
    r=subprocess.run([b+'main',b+'wout.txt','programs',"16 8\ncircular_tokamak\n0 1\n",'','',b+'out'],capture_output=True,text=True)
    same=r.returncode==0 and open(b+'out.driver').read()==open(b+'out.cli').read()
    print('programs: exit',r.returncode,r.stderr.strip(),'; same file:',same)
    return same

def reading(b):
    """read_boozmn on the reference files: the matrices have the numbers in the files."""
    good=True
    for n in sorted(os.listdir(FILES)):
        if not n.startswith('boozmn_'): continue
        f=read(FILES+n); dump(f,b+'in.txt'); bad=[]
        r=subprocess.run(['sh','-c','ulimit -s unlimited; exec "$@"','sh',b+'main',b+'in.txt','read'],capture_output=True,text=True)
        for l in r.stdout.splitlines():
            w=l.split()
            if w[0] in f['vars'] and [float.fromhex(x) for x in w[1:]]!=f['vars'][w[0]]['vals']: bad.append(w[0])
            if w[0] not in f['vars'] and w[1:]: bad.append(w[0])
        print('reading',n,'exit',r.returncode,r.stderr.strip(),'; differ:',bad)
        good=good and r.returncode==0 and not bad
    return good

def build():
    d = tempfile.mkdtemp(prefix='regression') + '/'
    for n, t in (('fl.ml', FL), ('main.ml', MAIN), ('ext.v', EXTRACT)):
        with open(d + n, 'w') as o: o.write(t)
    subprocess.run(['coqc', '-Q', os.path.abspath(THEORIES), 'Verif', 'ext.v'], cwd=d, check=True, stderr=subprocess.DEVNULL)
    subprocess.run(['ocamlfind', 'ocamlopt', '-O3', '-w', '-a', 'fl.ml', 'model.mli', 'model.ml', 'main.ml', '-o', 'main'],
                   cwd=d, check=True, stderr=subprocess.DEVNULL)
    return d

if __name__ == '__main__':
    b = build()
    ok = True
    for a in sys.argv[1:]:
        p = a.split(':')
        if a == 'reading': ok = reading(b) and ok; continue
        if a == 'programs': ok = programs(b) and ok; continue
        ok = case(b, p[0], int(p[1]), [int(x) for x in p[2].split(',')] if len(p) > 2 else None) and ok
    sys.exit(0 if ok else 1)

(** Model of the text-layout, file-deletion and interpolation helpers of general.py. *)
From Coq Require Import ZArith Ascii String List Bool Arith.
From Verif Require Import PyErr Num Vec Shapes Csg Optics General.
Import ListNotations.
Local Open Scope string_scope.

(* ------------------------------------------------------------------ text layout *)
Section Layout.
Context {T : Type} {N : Num T}.
(** ('{:' + formatstr + '}').format(val), an arbitrary function that may raise *)
Variable fmt : T -> Res string.

(** the loops "for idx in range(k): p10str += ' '"; range of a negative number is empty *)
Fixpoint pad_loop (k : nat) (s : string) : string := match k with O => s | S k => pad_loop k (s ++ " ") end.
Definition pad (k : Z) (s : string) : string := pad_loop (Z.to_nat k) s.
Definition newline : string := String (ascii_of_nat 10) EmptyString.

(** general.py:352-366  the loop over enumerate(nparray) *)
Fixpoint p10_loop (numleftpadspaces numrightpadspaces numleftindentspaces : Z) (val_idx : nat) (vals : list T) (p10str : string) : Res string :=
  match vals with
  | [] => Ok p10str
  | val :: vals =>
      let p10str := if (0 <? val_idx)%nat && (val_idx mod 10 =? 0)%nat then pad numleftindentspaces (p10str ++ newline) else p10str in
      let p10str := if nlt val (nofZ 0) then pad (numleftpadspaces - 1) p10str else pad numleftpadspaces p10str in
      do w <- fmt val;
      let p10str := p10str ++ w in
      let p10str := if negb (val_idx mod 10 =? 9)%nat then pad numrightpadspaces p10str else p10str in
      p10_loop numleftpadspaces numrightpadspaces numleftindentspaces (S val_idx) vals p10str
  end.
(** general.py:347-367  prism10widetextarray *)
Definition prism10widetextarray (nparray : list T) (numleftpadspaces numrightpadspaces numleftindentspaces : Z) : Res string :=
  p10_loop numleftpadspaces numrightpadspaces numleftindentspaces 0 nparray (pad numleftindentspaces "").
End Layout.

(* ------------------------------------------------------------------ files *)
(** A directory entry: an ordinary file, a symbolic link to a directory, or a directory with its entries in the order in which the
    operating system lists them. *)
Inductive node : Type :=
| File
| DirLink
| Dir (entries : list (string * node)).

(** str.endswith *)
Definition endswith (s suffix : string) : bool :=
  let n := String.length s in let k := String.length suffix in
  (k <=? n)%nat && String.eqb (substring (n - k) k s) suffix.

(** os.remove of the entry [name] of a directory: files and links can be removed, directories and missing entries raise OSError *)
Fixpoint remove_entry (name : string) (es : list (string * node)) : Res (list (string * node)) :=
  match es with
  | [] => Err OSError
  | (n, x) :: es =>
      if String.eqb n name then match x with Dir _ => Err OSError | _ => Ok es end
      else do es' <- remove_entry name es; Ok ((n, x) :: es')
  end.
(** os.remove of the path [dirs]/[name] below a directory *)
Fixpoint os_remove (dirs : list string) (name : string) (t : node) {struct dirs} : Res node :=
  match t with
  | Dir es =>
      match dirs with
      | [] => do es' <- remove_entry name es; Ok (Dir es')
      | d :: dirs =>
          do es' <- (fix go (es : list (string * node)) : Res (list (string * node)) :=
             match es with
             | [] => Err OSError
             | (n, x) :: es => if String.eqb n d then do x' <- os_remove dirs name x; Ok ((n, x') :: es) else do es' <- go es; Ok ((n, x) :: es')
             end) es;
          Ok (Dir es')
      end
  | _ => Err OSError
  end.

(** os.walk, top-down: for a directory, its path and the entries that are no directories (links to directories count as directories but are
    not followed), then the same for every subdirectory.  Something that is no directory yields nothing.  Python walks lazily; the
    listing of a directory is read before any of its files is removed, and only files of directories already listed are removed. *)
Fixpoint os_walk (root : list string) (t : node) : list (list string * list string) :=
  match t with
  | Dir es =>
      (root, map fst (filter (fun e => match snd e with File => true | _ => false end) es)) ::
      (fix go (es : list (string * node)) : list (list string * list string) :=
         match es with
         | [] => []
         | (n, x) :: es => (os_walk (root ++ [n]) x ++ go es)%list
         end) es
  | _ => []
  end.

(** The lines printed (the paths named in them), the state of the folder and how the function ends *)
Definition Eff : Type := (list (list string) * node * Res unit)%type.
(** one pass of the loops: print and remove the file if its name matches *)
Definition remove_if (ext : string) (root : list string) (file : string) (t : node) : Eff :=
  if endswith file ext then
    match os_remove root file t with
    | Ok t' => ([(root ++ [file])%list], t', Ok tt)
    | Err e => ([(root ++ [file])%list], t, Err e)
    end
  else ([], t, Ok tt).
Fixpoint remove_loop (ext : string) (todo : list (list string * string)) (t : node) : Eff :=
  match todo with
  | [] => ([], t, Ok tt)
  | (root, file) :: todo =>
      match remove_if ext root file t with
      | (out, t', Ok _) => let '(out', t'', r) := remove_loop ext todo t' in ((out ++ out')%list, t'', r)
      | (out, t', Err e) => (out, t', Err e)
      end
  end.
(** general.py:415-427  delete_files_with_extension.  The folder is given by what is found there, [None] for nothing: os.listdir then raises
    OSError (as it does for a file), os.walk yields nothing.  The state is returned only if there is something. *)
Definition delete_files_with_extension (folder : option node) (extensionWithDot : string) (deleteInSubDirectories : bool) :
  list (list string) * option node * Res unit :=
  match folder with
  | None => ([], None, if deleteInSubDirectories then Ok tt else Err OSError)
  | Some t =>
      if deleteInSubDirectories then
        let '(out, t', r) := remove_loop extensionWithDot (flat_map (fun rf => map (fun file => (fst rf, file)) (snd rf)) (os_walk [] t)) t in (out, Some t', r)
      else
        match t with
        | Dir es => let '(out, t', r) := remove_loop extensionWithDot (map (fun e => ([], fst e)) es) t in (out, Some t', r)
        | _ => ([], Some t, Err OSError)
        end
  end.

(* ------------------------------------------------------------------ interpolation *)
Section Interp.
Context {T : Type} {N : Num T} {EL : Elem T}.
Local Open Scope num_scope.

(** np.log10: NaN for negative numbers, -inf for zero *)
Definition np_log10 (x : T) : Res T :=
  if x <? #0 then Ok (#0 / #0) else if x =? #0 then Ok (- (#1 / #0)) else nlog10 x.
Fixpoint mapM {A B} (f : A -> Res B) (l : list A) : Res (list B) :=
  match l with [] => Ok [] | x :: l => do y <- f x; do ys <- mapM f l; Ok (y :: ys) end.
(** np.all(np.diff(x) > 0) *)
Fixpoint increasing (l : list T) : bool :=
  match l with
  | x :: ((y :: _) as tl) => (y - x >? #0) && increasing tl
  | _ => true
  end.
Definition finite (x : T) : bool := x - x =? #0.
(** value at z of the straight line through two points, as FITPACK's splev computes it from the two B-splines of degree 1 *)
Definition chord (p q : T * T) (z : T) : T :=
  let f := #1 / (fst q - fst p) in snd p * (f * (fst q - z)) + snd q * (f * (z - fst p)).
(** FITPACK's search for the knot interval: [x_i, x_(i+1)), the first one also for arguments below, the last one for arguments above *)
Fixpoint spline1 (p : T * T) (pts : list (T * T)) (z : T) : T :=
  match pts with
  | [] => snd p   (* not reached: at least two points *)
  | [q] => chord p q z
  | q :: pts => if fst q <=? z then spline1 q pts z else chord p q z
  end.
(** general.py:327-336  log_interp1d.  InterpolatedUnivariateSpline(logx, logy, k=1) is the piecewise linear function through the points, continued
    by its end pieces; it raises ValueError unless logx is strictly increasing.  Arrays of different lengths, fewer than two points, and
    infinite or NaN logarithms are not modelled.  The argument [kind] is not used by the code. *)
Definition log_interp1d (xx yy : list T) : Res (T -> Res T) :=
  do logx <- mapM np_log10 xx;
  do logy <- mapM np_log10 yy;
  if negb (increasing logx) then Err ValueError
  else if negb (List.length xx =? List.length yy)%nat then Err NotModelled
  else if negb (forallb finite logx && forallb finite logy) then Err NotModelled
  else match combine logx logy with
       | p :: q :: pts => Ok (fun zz => do lz <- np_log10 zz; npow #10 (spline1 p (q :: pts) lz))
       | _ => Err NotModelled
       end.
End Interp.

(* VTableModel.v: virtual tables.
   Transcribes src/ulam/NodeBlockClass.cpp:1488-1542 (calcMaxIndexOfVirtualFunctions), src/ulam/SymbolTableOfFunctions.cpp:167-217
   (calcMaxIndexForVirtualTableOfFunctions), src/ulam/SymbolClass.cpp:1826-2070 (initVTable, updateVTable and the look-ups),
   src/ulam/SymbolFunction.cpp:571-672 (calcMaxIndexOfVirtualFunction) and src/ulam/CompilerState.cpp:4809-4984
   (findOverrideMatching..., findOriginatingMatchingVirtualFunctionStrictlyByTypesInAncestorOf).
   A function is named by its class and its signature, a number that stands for its name and the types of its parameters; two
   functions match strictly by types exactly if the signatures are equal. Messages are left out but for the number of errors
   about conflicting originating declarations. A failed SYMBOL_ASSERT is None.
   D gives the finished tables of the classes done so far; a class waits (None) until all its bases are done. *)
From Coq Require Import String List NArith ZArith Bool.
From Verif Require Import Base TypeTableModel FamilyModel SourceStreamModel.
Import ListNotations.
Open Scope N_scope.

(* a declaration: NodeBlockFunctionDefinition with the flags virtual and pure *)
Record fdecl : Type := { fd_sig : N; fd_virtual : bool; fd_pure : bool }.
(* SymbolFunction: virtual may be switched on, index and originating class are filled in *)
Record fsym : Type := { fs_sig : N; fs_virtual : bool; fs_pure : bool; fs_vidx : option N; fs_orig : N }.
(* include/SymbolClass.h, struct VTEntry; the function by class and signature *)
Record vte : Type := { e_func : N * N; e_of : N; e_orig : N; e_vidx : N; e_pure : bool }.
Record vclass : Type := { v_funs : list fsym; v_table : list vte; v_owned : list vte; v_start : list (N * N); v_errs : N }.

Fixpoint lookup {A} (m : list (N * A)) (x : N) : option A :=
  match m with [] => None | (y, a) :: r => if x =? y then Some a else lookup r x end.

Section VTable.
Variable root : N -> N.
Variable bases : N -> option (list N).
Variable compare : N -> N -> cmp.
Variable funs : N -> list fdecl.
Variable D : N -> option vclass.

Definition find_fun (s : N) (v : vclass) : option fsym := find (fun f => fs_sig f =? s) (v_funs v).
Definition subclass (a b : N) : bool := isClassASubclassOf root bases compare a b.

(* CompilerState.cpp:4830-4881, one round for a matching function *)
Definition override_step (s : N) (acc : option (N * fsym)) (x : N) : option (N * fsym) :=
  match D x with
  | None => acc
  | Some v =>
    match find_fun s v with
    | Some f =>
      if fs_virtual f then
        match acc with
        | None => Some (x, f)
        | Some (k, _) => if subclass x k then Some (x, f) else acc
        end
      else acc
    | None => acc
    end
  end.
Definition findOverride (c s : N) : option (N * fsym) := fold_left (override_step s) (ancestors_of root bases true c) None.

(* CompilerState.cpp:4903-4967: the originator found, its function (None for NULL), the number of errors *)
Definition originating_step (s : N) (acc : option N * option fsym * N) (x : N) : option N * option fsym * N :=
  let '(found, fref, errs) := acc in
  match D x with
  | None => acc
  | Some v =>
    match find_fun s v with
    | Some f =>
      if fs_virtual f then
        match found with
        | None => (Some x, Some f, errs)
        | Some k =>
          if not_notsame (compare k x) then acc
          else if subclass k x then (Some x, Some f, errs)
          else if negb (subclass x k) then (found, None, errs + 1)
          else acc
        end
      else acc
    | None => acc
    end
  end.
Definition findOriginating (c s : N) : option N * option fsym * N := fold_left (originating_step s) (ancestors_of root bases false c) (None, None, 0).

(* SymbolClass.cpp:1929-1940: std::map insert; false if it was there *)
Definition set_start (m : list (N * N)) (x off : N) : list (N * N) * bool :=
  match lookup m (root x) with Some _ => (m, false) | None => (m ++ [(root x, off)], true) end.

(* SymbolClass.cpp:1858-1882: an inherited entry, overridden by the most specific function of the ancestors *)
Definition inherit_entry (c base : N) (e : vte) : vte :=
  match findOverride c (snd (e_func e)) with
  | Some (k, f) =>
    if negb (k =? base) && subclass k base
    then {| e_func := (k, fs_sig f); e_of := k; e_orig := e_orig e; e_vidx := e_vidx e; e_pure := fs_pure f |}
    else e
  | None => e
  end.
(* SymbolClass.cpp:1841-1887 *)
Definition init_step (c : N) (acc : list vte * list (N * N)) (x : N) : list vte * list (N * N) :=
  let '(t, m) := acc in
  match D x with
  | None => acc
  | Some v =>
    let '(m', fresh) := set_start m x (N.of_nat (List.length t)) in
    if fresh then (t ++ map (inherit_entry c x) (v_owned v), m') else (t, m')
  end.
(* SymbolClass.cpp:1826-1894 *)
Definition initVTable (c : N) : list vte * list (N * N) :=
  let '(t, m) := fold_left (init_step c) (ancestors_of root bases false c) ([], []) in
  (t, fst (set_start m c (N.of_nat (List.length t)))).

Definition vstate : Type := (list vte * list vte * N * N)%type. (* table, owned, number of owned, errors *)
(* SymbolClass.cpp:1896-1924 *)
Definition updateVTable (m : list (N * N)) (t owned : list vte) (e : vte) : option (list vte * list vte) :=
  match lookup m (e_orig e) with
  | None => None
  | Some start =>
    let idx := start + e_vidx e in
    if idx <? N.of_nat (List.length t) then
      match nth_error t (N.to_nat idx) with
      | Some old => if (e_orig old =? e_orig e) && (e_vidx old =? e_vidx e) then Some (set_nth (N.to_nat idx) e t, owned) else None
      | None => None
      end
    else if (N.of_nat (List.length t) =? idx) && (N.of_nat (List.length owned) =? e_vidx e) then Some (t ++ [e], owned ++ [e]) else None
  end.
(* SymbolFunction.cpp:575-672. The branch for a non-virtual ancestor function (632-646) is dead: findOverride returns virtual
   functions only. *)
Definition calcFunction (c : N) (m : list (N * N)) (d : fdecl) (st : vstate) : option (fsym * vstate) :=
  let '(t, owned, maxidx, errs) := st in
  let '(virt, vidx, orig, errs') :=
    match findOverride c (fd_sig d) with
    | Some _ =>
      let '(found, fref, e) := findOriginating c (fd_sig d) in
      match found, fref with
      | Some o, Some f => (true, fs_vidx f, o, errs + e)
      | _, _ => (true, None, c, errs + e)
      end
    | None => (fd_virtual d, None, c, errs)
    end in
  if virt then
    let '(v, maxidx') := match vidx with Some v => (v, maxidx) | None => (maxidx, maxidx + 1) end in
    let e := {| e_func := (c, fd_sig d); e_of := c; e_orig := orig; e_vidx := v; e_pure := fd_pure d |} in
    match updateVTable m t owned e with
    | Some (t', owned') => Some ({| fs_sig := fd_sig d; fs_virtual := true; fs_pure := fd_pure d; fs_vidx := Some v; fs_orig := orig |}, (t', owned', maxidx', errs'))
    | None => None
    end
  else Some ({| fs_sig := fd_sig d; fs_virtual := false; fs_pure := fd_pure d; fs_vidx := None; fs_orig := 0 |}, st).
Fixpoint calcFunctions (c : N) (m : list (N * N)) (ds : list fdecl) (st : vstate) : option (list fsym * vstate) :=
  match ds with
  | [] => Some ([], st)
  | d :: r =>
    match calcFunction c m d st with
    | None => None
    | Some (f, st') => match calcFunctions c m r st' with Some (fs, st'') => Some (f :: fs, st'') | None => None end
    end
  end.
(* SymbolTableOfFunctions.cpp:167-217: the number of entries expected from the ancestors; initVTable asserts it
   (SymbolClass.cpp:1889-1890) *)
Definition accumMaxes (c : N) : N :=
  fold_left (fun a x => match D x with Some v => a + N.of_nat (List.length (v_owned v)) | None => a end) (ancestors_of root bases false c) 0.
(* NodeBlockClass.cpp:1488-1542: None if a base is not done, or an assertion fails *)
Definition ready (c : N) : bool :=
  match bases c with Some bs => forallb (fun b => (b =? 0) || match D b with Some _ => true | None => false end) bs | None => false end.
Definition calcClass (c : N) : option vclass :=
  if ready c then
    let '(t, m) := initVTable c in
    if negb (N.of_nat (List.length t) =? accumMaxes c) then None else
    match calcFunctions c m (funs c) (t, [], 0, 0) with
    | Some (fs, (t', owned, _, errs)) => Some {| v_funs := fs; v_table := t'; v_owned := owned; v_start := m; v_errs := errs |}
    | None => None
    end
  else None.

(* SymbolClass.cpp:2058-2067 *)
Definition isAbstract (v : vclass) : bool := existsb e_pure (v_table v).
(* the slot of an originating class's function: getVTstartoffsetOfRelatedOriginatingClass + index, as generated code computes it *)
Definition slot (v : vclass) (o i : N) : option vte :=
  match lookup (v_start v) o with Some st => nth_error (v_table v) (N.to_nat (st + i)) | None => None end.
End VTable.

(* the classes are done one by one *)
Definition upd (D : N -> option vclass) (c : N) (v : vclass) : N -> option vclass := fun x => if x =? c then Some v else D x.

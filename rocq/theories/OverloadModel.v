(* OverloadModel.v: choosing the function for a call.
   Transcribes src/ulam/SymbolFunction.cpp:310-443 (matchingTypesStrictly, matchingTypes),
   src/ulam/SymbolFunctionName.cpp:163-242 (findMatchingFunction, findMatchingFunctionWithSafeCasts),
   src/ulam/CompilerState.cpp:4996-5205 (the same in a class and in its base classes) and the use of the answer in
   src/ulam/NodeFunctionCall.cpp:160-239.
   Parameters: what the type system answers about one parameter and one argument (rel); the overloads of the called name
   in each class (overloads), in the order of the map; root, bases as in FamilyModel; sub, isClassASubclassOf (C32); hzy,
   the index of the type Hzy, which a base class not yet known has.
   Left out: messages; the table of signatures that findMatchingFunctionWithSafeCasts fills and nobody reads. *)
From Coq Require Import List NArith Bool.
From Verif Require Import Base TypeTableModel FamilyModel.
Import ListNotations.
Open Scope N_scope.

(* FORECAST, include/UlamType.h *)
Inductive forecast := CAST_CLEAR | CAST_BAD | CAST_HAZY.

(* one parameter against one argument *)
Record fit : Type := {
  p_ok : bool;            (* okUTItoContinue(puti) *)
  p_complete : bool;      (* isComplete(puti) *)
  a_ok : bool;            (* okUTItoContinue(auti) *)
  pa_cmp : cmp;           (* UlamType::compareForArgumentMatching(puti, auti) *)
  a_const : bool;         (* argNodes[i]->isAConstant() == TBOOL_TRUE *)
  p_ref : bool;           (* put->isAltRefType() *)
  p_const : bool;         (* isConstantParameter(i) *)
  p_constref : bool;      (* isConstantRefType(puti) *)
  a_explicit : bool;      (* argNodes[i]->isExplicitCast() *)
  a_safe : forecast;      (* argNodes[i]->safeToCastTo(puti) *)
  p_safe : forecast;      (* put->safeCast(auti) *)
  same_enum : bool        (* put->getUlamTypeEnum() == aut->getUlamTypeEnum() *)
}.

Section Overload.
Variables P A : Type.                       (* parameters, arguments *)
Variable rel : P -> A -> fit.

(* a SymbolFunction: the function, its parameters, takesVariableArgs *)
Record func : Type := { f_id : N; f_params : list P; f_varargs : bool }.

Definition wrong_number (f : func) (args : list A) : bool :=
  (Nat.ltb (length args) (length (f_params f)))
  || (Nat.ltb (length (f_params f)) (length args) && negb (f_varargs f)).

(* SymbolFunction.cpp:320-341; the flag is the hazy flag *)
Fixpoint strict_loop (ps : list P) (args : list A) (hazy : bool) : bool * bool :=
  match ps, args with
  | [], _ => (true, hazy)
  | p :: ps', a :: args' =>
    let x := rel p a in
    if negb (p_ok x) || negb (p_complete x) then (false, true)
    else match pa_cmp x with
         | Same => strict_loop ps' args' hazy
         | NotSame => (false, hazy)
         | DontKnow => (false, true)
         end
  | _ :: _, [] => (false, hazy)             (* not reached: the number was checked *)
  end.
(* SymbolFunction.cpp:310-354 *)
Definition matchingTypesStrictly (f : func) (args : list A) (hazy : bool) : bool * bool :=
  if wrong_number f args then (false, hazy) else strict_loop (f_params f) args hazy.

(* SymbolFunction.cpp:366-442: result, hazy flag, number of arguments of the parameter's own type *)
Fixpoint safe_loop (ps : list P) (args : list A) (hazy : bool) (n : N) : bool * bool * N :=
  match ps, args with
  | [], _ => (true, hazy, n)
  | p :: ps', a :: args' =>
    let x := rel p a in
    if negb (p_ok x) || negb (a_ok x) then (true, true, n)
    else match pa_cmp x with
         | Same => safe_loop ps' args' hazy (n + 1)
         | _ =>
           if a_const x then
             if p_ref x && (negb (p_const x) || a_explicit x) then (false, hazy, n)
             else match a_safe x with
                  | CAST_BAD => (false, hazy, n)
                  | CAST_HAZY => safe_loop ps' args' true n
                  | CAST_CLEAR => safe_loop ps' args' hazy (if same_enum x then n + 1 else n)
                  end
           else match p_safe x with
                | CAST_BAD => (false, hazy, n)
                | CAST_HAZY => safe_loop ps' args' true n
                | CAST_CLEAR =>
                  if p_constref x && a_explicit x then (false, hazy, n)
                  else safe_loop ps' args' hazy (if same_enum x then n + 1 else n)
                end
         end
  | _ :: _, [] => (false, hazy, n)
  end.
(* SymbolFunction.cpp:356-443 *)
Definition matchingTypes (f : func) (args : list A) (hazy : bool) : bool * bool * N :=
  if wrong_number f args then (false, hazy, 0) else safe_loop (f_params f) args hazy 0.

(* SymbolFunctionName.cpp:163-186: count, last match, hazy *)
Fixpoint strict_find (fs : list func) (args : list A) (r : N * option func * bool) : N * option func * bool :=
  match fs with
  | [] => r
  | f :: fs' =>
    let '(n, s, hz) := r in
    let '(m, h) := matchingTypesStrictly f args false in
    strict_find fs' args (if m then n + 1 else n, if m then Some f else s, hz || h)
  end.
Definition findMatchingFunction (fs : list func) (args : list A) : N * option func * bool := strict_find fs args (0, None, false).

(* SymbolFunctionName.cpp:210-227: count, last match, hazy, count of all-same-type matches, last of these *)
Fixpoint safe_find (fs : list func) (args : list A) (r : N * option func * bool * N * option func)
  : N * option func * bool * N * option func :=
  match fs with
  | [] => r
  | f :: fs' =>
    let '(n, s, hz, k, t) := r in
    let '(m, hz', ut) := matchingTypes f args hz in
    if m && negb hz' then
      if ut =? N.of_nat (length args) then safe_find fs' args (n + 1, Some f, hz', k + 1, Some f)
      else safe_find fs' args (n + 1, Some f, hz', k, t)
    else safe_find fs' args (n, s, hz', k, t)
  end.
(* SymbolFunctionName.cpp:188-242 *)
Definition findMatchingFunctionWithSafeCasts (fs : list func) (args : list A) : N * option func * bool :=
  let '(n, s, hz, k, t) := safe_find fs args (0, None, false, 0, None) in
  if 1 <? n then (if 1 <? k then (n, None, hz) else (k, t, hz)) else (n, s, hz).

(* ---- base classes ---- *)
Variable root : N -> N.
Variable bases : N -> option (list N).
Variable overloads : N -> list func.
Variable sub : N -> N -> bool.
Variable hzy : N.

(* CompilerState.cpp:4996-5014 *)
Definition exactInClass (c : N) (args : list A) : N * option func * bool :=
  let '(n, s, hz) := findMatchingFunction (overloads c) args in (if hz then 0 else n, s, hz).

(* CompilerState.cpp:5022-5063: count, function, class, hazy, and whether it stopped *)
Fixpoint exact_loop (fuel : nat) (args : list A) (d : deque) (seen : list N) (r : N * option (func * N) * bool)
  : N * option (func * N) * bool :=
  match fuel with
  | O => r
  | S g =>
    match getNextBasePair root d seen with
    | (None, _, _) => r
    | (Some (b, _), d', seen') =>
      let '(n, s, hz) := r in
      match bases b with
      | Some bs =>
        let '(m, t, h) := exactInClass b args in
        let r' := (n + m, if m =? 1 then match t with Some f => Some (f, b) | None => None end else s, hz || h) in
        if (m =? 1) && match d' with [] => true | _ => false end then r'
        else exact_loop g args (addAncestorPairsOf false bs 0 d') seen' r'
      | None => exact_loop g args d' seen' (n, s, hz || (b =? hzy))
      end
    end
  end.
(* CompilerState.cpp:5016-5080 *)
Definition findExact (c : N) (args : list A) : option (func * N) * bool * bool :=  (* function, hazy, exactly one *)
  let '(n, s, hz) := exact_loop the_fuel args [(c, 0)] [] (0, None, false) in
  if n =? 0 then (s, hz, false) else if 1 <? n then (None, hz, false) else (s, hz, true).

(* foundinbase: Nouti, a class, or Nav *)
Inductive where_found := FNone | FAt (c : N) | FNav.

(* CompilerState.cpp:5116-5187; the early end (rtnb) is the end of the walk: it needs an empty list of bases to come, and
   no bases are added then *)
Fixpoint safe_walk (fuel : nat) (args : list A) (d : deque) (seen : list N)
    (r : N * option (func * N) * bool * where_found) : N * option (func * N) * bool * where_found :=
  match fuel with
  | O => r
  | S g =>
    match getNextBasePair root d seen with
    | (None, _, _) => r
    | (Some (b, _), d', seen') =>
      let '(n, s, hz, w) := r in
      match bases b with
      | Some bs =>
        let '(m, t, h) := findMatchingFunctionWithSafeCasts (overloads b) args in
        let hz' := hz || h in
        let here := match t with Some f => Some (f, b) | None => None end in
        if m =? 1 then
          match w with
          | FNone => safe_walk g args d' seen' (m, here, hz', FAt b)
          | FAt c =>
            if sub b c then safe_walk g args d' seen' (m, here, hz', FAt b)
            else if negb (sub c b) then safe_walk g args d' seen' (n + m, None, hz', FNav)
            else safe_walk g args d' seen' (n, s, hz', w)
          | FNav => safe_walk g args d' seen' (n + m, None, hz', FNav)
          end
        else safe_walk g args (addAncestorPairsOf false bs 0 d') seen' (n + m, s, hz', w)
      | None => safe_walk g args d' seen' (n, s, hz || (b =? hzy), w)
      end
    end
  end.

(* CompilerState.cpp:5100-5205: the number of matches, the function with its class, the hazy flag *)
Definition findFunction (c : N) (args : list A) : N * option (func * N) * bool :=
  let '(s, hz, one) := findExact c args in
  if one then (1, s, hz)
  else
    let '(n, s', hz', _) := safe_walk the_fuel args [(c, 0)] [] (0, s, hz, FNone) in
    (n, s', hz').

(* NodeFunctionCall.cpp:160-239: what becomes of the call. With one match the function is used at once
   (funcSymbol->getNumberOfParameters()), which needs it not to be NULL *)
Inductive verdict := Calls (f : func) (c : N) | Waits | NoMatch | Ambiguous | NullFunction.
Definition call (c : N) (args : list A) : verdict :=
  let '(n, s, hz) := findFunction c args in
  if n =? 1 then match s with Some (f, b) => if hz then Waits else Calls f b | None => NullFunction end
  else if hz then Waits else if n =? 0 then NoMatch else Ambiguous.

End Overload.

(* ParamModel.v: the parameters of class templates, and the arguments of their instances.
   Transcribes src/ulam/Parser.cpp:569-641 (parseRestOfClassParameters), 2438-2492 (parseClassParameterConstdef), 5486-5554
   (parseRestOfConstantDef), 3030-3160 (parseClassArguments, from the open parenthesis on), 3162-3324 (parseRestOfClassArguments),
   SymbolClassNameTemplate.cpp:85-112, 550-765 (fixAnyUnseenClassInstances, for one instance), 767-824 (fixAClassStubsDefaultArgs) and
   Resolver.cpp:374-452 (constantFoldNonreadyClassArgs); a constant expression is labelled as in ConstResModel.
   Simplifications: parameters are of primitive scalar types, known already; what parseExpression reads is one token here (AE), so is the
   type, name and default value of a parameter (PDecl); a token at which no expression or no parameter begins is ABad or PBad.
   An instance has the arguments of the place where it is written: stub copies (copyAStubClassInstance, members of templates) are left out.
   A parameter is found by its name, the argument _i of an instance of an unseen template by its position. *)
From Coq Require Import List NArith ZArith Bool.
From Verif Require Import ConstResModel.
Import ListNotations.
Open Scope N_scope.

Record param := { p_id : N; p_fit : Z -> option Z; p_def : option ex }.
Record binding := { b_id : N; b_fit : Z -> option Z; b_ex : ex; b_dflt : bool }.

(* SymbolClassNameTemplate.cpp:92-112 *)
Definition hasDefault (p : param) : bool := match p_def p with Some _ => true | None => false end.
Definition totalDefaults (ps : list param) : nat := length (filter hasDefault ps).
Definition parameterHasDefaultValue (ps : list param) (i : nat) : bool := match nth_error ps i with Some p => hasDefault p | None => false end.

(* ---- the definition ---- *)
Inductive ptok := PDecl (p : param) | PComma | PClose | PBad.
(* Parser.cpp:569-641: the parameters, whether there was an error, the tokens left *)
Fixpoint parseRestOfClassParameters (ps : list param) (ts : list ptok) : list param * bool * list ptok :=
  match ts with
  | PClose :: r => (ps, Nat.eqb (length ps) 0, r)
  | PDecl p :: r =>
    let assignrequired := match length ps with O => false | S k => parameterHasDefaultValue ps k end in
    if existsb (fun q => p_id q =? p_id p) ps then (ps, true, r)
    else if assignrequired && negb (hasDefault p) then (ps, true, r)
    else match r with
         | PComma :: r' => parseRestOfClassParameters (ps ++ [p]) r'
         | _ => parseRestOfClassParameters (ps ++ [p]) r
         end
  | _ => (ps, true, ts)
  end.

(* ---- the instance ---- *)
Inductive atok := AE (e : ex) | AComma | AClose | ABad.
Definition startsClose (ts : list atok) : bool := match ts with AClose :: _ => true | _ => false end.
(* Parser.cpp:3162-3324; limit: the number of parameters, if the template has been seen.  The arguments, how many there are, whether there was
   an error, the tokens left *)
Fixpoint parseRestOfClassArguments (limit : option nat) (parmIdx : nat) (ts : list atok) : list ex * nat * bool * list atok :=
  match ts with
  | AClose :: r => ([], parmIdx, false, r)
  | AE e :: r =>
    let tooMany := match limit with Some n => Nat.leb n parmIdx | None => false end in
    let add x := let '(es, k, err, rest) := x in (if tooMany then es else e :: es, k, err || tooMany, rest) in
    match r with
    | AComma :: r' => let '(es, k, err, rest) := add (parseRestOfClassArguments limit (S parmIdx) r') in (es, k, err || startsClose r', rest)
    | _ => add (parseRestOfClassArguments limit (S parmIdx) r)
    end
  | _ => ([], parmIdx, true, ts)
  end.

Definition explicit (p : param) (e : ex) : binding := {| b_id := p_id p; b_fit := p_fit p; b_ex := e; b_dflt := false |}.
Definition default (p : param) : option binding :=
  match p_def p with Some e => Some {| b_id := p_id p; b_fit := p_fit p; b_ex := e; b_dflt := true |} | None => None end.
Fixpoint zip (ps : list param) (es : list ex) : list binding :=
  match ps, es with p :: ps, e :: es => explicit p e :: zip ps es | _, _ => [] end.
Fixpoint defaults (ps : list param) : option (list binding) :=
  match ps with
  | [] => Some []
  | p :: ps => match default p, defaults ps with Some b, Some bs => Some (b :: bs) | _, _ => None end
  end.

(* an assertion failed, or a parameter without default value is given one; the arguments, in order, and whether there was an error *)
Inductive stub := Abort | Stub (bs : list binding) (err : bool).

(* Parser.cpp:3030-3160 with a template seen before *)
Definition parseClassArguments (ps : list param) (ts : list atok) : stub * list atok :=
  let numParams := length ps in
  if startsClose ts && (negb (Nat.eqb numParams 0) && negb (Nat.eqb (totalDefaults ps) numParams)) then (Stub [] true, tl ts)
  else
    let '(es, k, err, rest) := parseRestOfClassArguments (Some numParams) 0 ts in
    if Nat.ltb k numParams then
      if negb (parameterHasDefaultValue ps k) then (Stub (zip ps es) true, rest)
      else if Nat.leb (numParams - k) (totalDefaults ps) then
        match defaults (skipn k ps) with Some ds => (Stub (zip ps es ++ ds) err, rest) | None => (Abort, rest) end
      else (Abort, rest)
    else (Stub (zip ps es) err, rest).

(* SymbolClassNameTemplate.cpp:653-733: the parameters from i on; es: the arguments _i, _i+1, ...; the last default parameter used.
   The arguments, and how many were found *)
Fixpoint fixParams (i : nat) (ps : list param) (es : list ex) (last : option nat) : option (list binding * nat * bool) :=
  match ps with
  | [] => Some ([], O, false)
  | p :: ps =>
    match es with
    | e :: es => match fixParams (S i) ps es last with Some (bs, n, err) => Some (explicit p e :: bs, S n, err) | None => None end
    | [] =>
      let last := match last with Some l => l | None => i end in
      if Nat.ltb (S last) i then match fixParams (S i) ps [] (Some last) with Some (bs, n, _) => Some (bs, n, true) | None => None end
      else match default p, fixParams (S i) ps [] (Some i) with Some b, Some (bs, n, err) => Some (b :: bs, S n, err) | _, _ => None end
    end
  end.
(* SymbolClassNameTemplate.cpp:600-740 *)
Definition fixUnseenInstance (ps : list param) (es : list ex) (err : bool) : stub :=
  let numparams := length ps in
  let cargs := length es in
  if Nat.ltb cargs numparams && Nat.ltb (cargs + totalDefaults ps) numparams then Stub [] true
  else if Nat.ltb numparams cargs then Stub [] true
  else match fixParams 0 ps es None with
       | Some (bs, found, e) => Stub bs (err || e || negb (Nat.eqb found numparams))
       | None => Abort
       end.
(* an instance of a template that is read later *)
Definition unseenInstance (ps : list param) (ts : list atok) : stub * list atok :=
  let '(es, _, err, rest) := parseRestOfClassArguments None 0 ts in (fixUnseenInstance ps es err, rest).

(* ---- the values ---- *)
(* the names that an argument can mean: those of the place where it is written; for a default value, the parameters of the instance, and
   then the names of the template and of its file *)
Definition names (ids : list N) (ctx tmpl mine : env) (dflt : bool) : env :=
  if dflt then fun i => if existsb (N.eqb i) ids then mine i else tmpl i else ctx.
(* Resolver.cpp:396-431; pushed: the context of the instance has been entered.  The values, the arguments left, whether there was an error;
   None: the assertion of line 421 fails *)
Fixpoint foldArgs (ids : list N) (ctx tmpl mine : env) (pushed : bool) (pend : list binding) : option (env * list binding * bool) :=
  match pend with
  | [] => Some (mine, [], false)
  | b :: r =>
    if pushed && negb (b_dflt b) then None
    else
      let '(mine1, still, e) :=
        match label (names ids ctx tmpl mine (b_dflt b)) (b_ex b) with
        | (Ready v, e) => match b_fit b v with Some w => (set mine (b_id b) w, [], e) | None => (mine, [b], true) end
        | (Hazy, e) => (mine, [b], e)
        | (Nav, _) => (mine, [b], true)
        end in
      match foldArgs ids ctx tmpl mine1 (pushed || b_dflt b) r with
      | Some (mine2, lefts, e2) => Some (mine2, still ++ lefts, e || e2)
      | None => None
      end
  end.
(* Resolver.cpp:374-452, one time for each time through the loop of the compiler, with the constants known then *)
Fixpoint resolveArgs (ids : list N) (times : list (env * env)) (mine : env) (pend : list binding) (err : bool) : option (env * list binding * bool) :=
  match times with
  | [] => Some (mine, pend, err)
  | (ctx, tmpl) :: ts =>
    match foldArgs ids ctx tmpl mine false pend with
    | Some (mine1, lefts, e) => resolveArgs ids ts mine1 lefts (err || e)
    | None => None
    end
  end.

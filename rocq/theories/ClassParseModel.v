(* ClassParseModel.v: the parser of classes and of the file.
   Transcribes src/ulam/Parser.cpp:100-130 (parseProgram: the loop), 177-397 (parseThisClass), 408-526 (parseClassBlock), 569-642
   (parseRestOfClassParameters), 644-661 (parseMultipleClassInheritances), 663-744 (parseRestOfMultiClassInheritance), 864-1055
   (parseDataMember), 1057-1099 (parseRestOfDataMember), 2286-2353 (parseTypedef), 2355-2432 (parseConstdef), 2438-2493
   (parseClassParameterConstdef), 2495-2561 (parseModelParameter), 5486-5559 (parseRestOfConstantDef), 5561-5617
   (parseRestOfParameterDef), 5619-5811 (makeFunctionBlock), 5813-5881 (parseRestOfFunctionParameters), 5883-5922
   (parseFunctionParameterDecl), 5924-6014 (parseFunctionBody), 6016-6083 (makeFunctionSymbol).
   Simplifications: as in StmtModel, whose statements and expressions these are; a type descriptor, with its arguments and its &, is one
   token, E (TType t); array sizes, initialiser lists, constructor calls in a list of data members, local definitions, types and bases
   after 'local.', constant references and reference class parameters are answered Unmodelled; no name is declared twice and no
   function name is an operator; class arguments are accepted; the class was not used before its definition; the stack of class contexts
   is left out. *)
From Coq Require Import List NArith Bool.
From Verif Require Import Base ExprModel StmtModel.
Import ListNotations.
Open Scope N_scope.

(* the first token of a type descriptor: a type identifier alone; one with arguments or a selection, and which; Self; Void; Atom; another keyword *)
Inductive tykind := KdName | KdArgs (id : N) | KdSelf | KdVoid | KdAtom | KdWord.

Inductive code := CNative | CPure | CCode (ss : list tree).
Record func := { f_override : bool; f_virtual : bool; f_constr : bool; f_ty : N (* of a constructor: Self, though its node says Void *); f_id : N (* 0 for a constructor *);
                 f_params : list (bool * N * N) (* constant, type, name *); f_dots : bool; f_code : code }.
Inductive member := MTypedef (ty alias : N) | MConst (ty id : N) (e : node) | MParam (ty id : N) (e : node) | MFunc (f : func) | MVar (ty id : N) (e : node).
Inductive ckind := Element | Quark | Union | Transient.
(* none given: UrSelf, 471; the base class; not set at all *)
Inductive super := SDefault | SIs (t : N) | SUnset.
Record cls := { c_kind : ckind; c_concrete : bool; c_name : N; c_params : list (N * N * node); c_super : super; c_bases : list N; c_members : list member }.

Section Parse.
Variable kind : N -> tykind.
Variable isref : N -> bool.
Definition ident_of (t : N) : N := match kind t with KdArgs i => i | _ => t end.

(* 636, 5876: getExpectedToken with one argument never reports *)
Definition comma (s : st) : bool * st := let s1 := look s in match hd_tok (toks s1) with E TComma => (true, drop s1) | _ => (false, s1) end.
(* getTokensUntil, unreadToken *)
Definition skip (s : st) : st := set_toks s (upto Semi (toks s)).

(* 5486-5559; None: NULL; NNull: without a value *)
Definition constEnd {A} (stmt : bool) (k : option node -> st -> res A) (r : option node) (s : st) : res A :=
  if stmt then let s1 := look s in match hd_tok (toks s1) with Semi => k r s1 | _ => k r (fail s1) end else k r s.
Definition constantDef {A} (req stmt : bool) (s : st) (k : option node -> st -> res A) : res A :=
  let s1 := look s in
  match hd_tok (toks s1) with
  | E (TAssign 0) =>
    match tok_of (drop s1) with
    | OpenC => Unmodelled
    | _ => expr (Level 0) (look (drop s1)) (fun n s2 => if null n then constEnd stmt k None (fail s2) else constEnd stmt k (Some n) s2)
    end
  | _ => if req then constEnd stmt k None (if stmt then skip (fail s1) else fail s1) else constEnd stmt k (Some NNull) s1
  end.
(* 5561-5617; 5610 uses the node just deleted and set to NULL *)
Definition paramEnd {A} (k : option node -> st -> res A) (n : node) (s : st) : res A :=
  if null n then let s1 := look (skip (fail s)) in match hd_tok (toks s1) with Semi => k None s1 | _ => Fault end
  else let s1 := look s in match hd_tok (toks s1) with Semi => k (Some n) s1 | _ => k (Some n) (fail s1) end.
Definition parameterDef {A} (s : st) (k : option node -> st -> res A) : res A :=
  let s1 := look s in
  match hd_tok (toks s1) with
  | E (TAssign 0) =>
    match tok_of (drop s1) with
    | OpenC => paramEnd k NNull (fail (look (drop s1)))
    | _ => expr (Level 0) (look (drop s1)) (fun n s2 => paramEnd k n s2)
    end
  | _ => paramEnd k NNull s1
  end.

(* ---- class parameters: 569-642 with 2438-2493 ---- *)
Definition has_default (acc : list (N * N * node)) : bool := match last acc (0, 0, NNull) with (_, _, n) => negb (null n) end.
Fixpoint classParams (fuel : nat) (acc : list (N * N * node)) (s : st) : res (list (N * N * node)) :=
  match fuel with
  | O => Fuel
  | S g =>
    let s1 := look s in
    match hd_tok (toks s1) with
    | E TClose => Done acc (match acc with [] => fail (drop s1) | _ => drop s1 end)
    | E TLocal => Unmodelled
    | E (TType t) =>
      match kind t with
      | KdVoid | KdAtom => Done acc (fail (drop (look (drop s1))))
      | _ =>
        if isref t then Unmodelled else
        let s2 := look (drop s1) in
        match hd_tok (toks s2) with
        | E (TIdent i) =>
          match tok_of (drop s2) with
          | E TOpen | E TOpenSq | E TSquare => Unmodelled
          | _ => constantDef (has_default acc) false (drop s2) (fun r s3 =>
                   match r with
                   | None => Done acc (fail s3)
                   | Some n => classParams g (acc ++ [(t, i, n)]) (snd (comma s3))
                   end)
          end
        | _ => Done acc (fail (drop s2))
        end
      end
    | _ => Done acc (fail (drop s1))
    end
  end.

(* ---- base classes: 663-744; name is the class itself. local without a dot is passed over, 675-678 ---- *)
Definition baseClass (name : N) (s : st) : res (option N) :=
  let s1 := look s in
  match hd_tok (toks s1) with
  | E TLocal => let s2 := look (drop s1) in match hd_tok (toks s2) with E TDot => Unmodelled | _ => Done None s2 end
  | E (TType t) =>
    match kind t with
    | KdName | KdArgs _ => if ident_of t =? name then Done None (fail (drop s1)) else Done (Some t) (drop s1)
    | _ => Done None (fail (drop s1))
    end
  | _ => Done None (fail (drop s1))
  end.
(* 644-661 *)
Fixpoint baseClasses (fuel : nat) (name : N) (acc : list N) (s : st) : res (list N) :=
  match fuel with
  | O => Fuel
  | S g =>
    let s1 := look s in
    match hd_tok (toks s1) with
    | E (TBin Add) => sbind (baseClass name (drop s1)) (fun b s2 => baseClasses g name (match b with Some t => acc ++ [t] | None => acc end) s2)
    | _ => Done acc s1
    end
  end.

(* ---- functions ---- *)
Definition fparams : Type := list (bool * N * N).
(* 5872-5880: a comma, or none, and the parameters after it *)
Definition nextParam (rec : fparams -> bool -> st -> res (fparams * bool)) (acc : fparams) (dots : bool) (s : st) : res (fparams * bool) :=
  let '(c, s1) := comma s in rec acc dots (if c && dots then fail s1 else s1).
(* 5883-5922; c: after the word constant *)
Definition paramDecl (rec : fparams -> bool -> st -> res (fparams * bool)) (acc : fparams) (dots c : bool) (s : st) : res (fparams * bool) :=
  let s1 := look s in
  match hd_tok (toks s1) with
  | E (TType t) =>
    let s2 := look (drop s1) in
    match hd_tok (toks s2) with
    | E (TIdent i) =>
      match tok_of (drop s2) with
      | E TOpenSq | E TSquare => Unmodelled
      | _ => nextParam rec (acc ++ [(c, t, i)]) dots (if dots then fail (drop s2) else drop s2)
      end
    | _ => nextParam rec acc dots (fail (drop s2))
    end
  | _ => nextParam rec acc dots (fail s1)
  end.
(* 5813-5881 *)
Fixpoint funcParams (fuel : nat) (acc : fparams) (dots : bool) (s : st) : res (fparams * bool) :=
  match fuel with
  | O => Fuel
  | S g =>
    let s1 := look s in
    match hd_tok (toks s1) with
    | E TClose => Done (acc, dots) (drop s1)
    | Other Ellipsis => nextParam (funcParams g) acc true (if dots then fail (drop s1) else drop s1)
    | E (TType _) => paramDecl (funcParams g) acc dots false s1
    | KConst => paramDecl (funcParams g) acc dots true (drop s1)
    | E TLocal => Unmodelled
    | E (TAssign 0) => nextParam (funcParams g) acc dots (fail (drop s1))
    | _ => Done (acc, dots) (fail (drop s1))
    end
  end.
(* 5924-6014; None: false *)
Definition funcBody (virt : bool) (s : st) : res (option code) :=
  let s1 := look s in
  match hd_tok (toks s1) with
  | OpenC => sbind (parseFunctionBody (drop s1)) (fun ss s2 => Done (match hd_tok (toks s2) with CloseC => Some (CCode ss) | _ => None end) s2)
  | Other WNative => Done (Some CNative) (drop s1)
  | Semi => if virt then Done (Some CPure) s1 else Done None (fail s1)
  | _ => Done None (fail s1)
  end.
(* 5717-5797: the parameters and the body *)
Definition funcRest (virt constr : bool) (s : st) : res (option (list (bool * N * N) * bool * code)) :=
  sbind (funcParams (S (length (toks s))) [] false s) (fun ps s1 =>
    if constr && match fst ps with [] => true | _ => false end then Done None (fail s1) else
    sbind (funcBody virt s1) (fun c s2 =>
      match c with
      | None => Done None s2
      | Some c => Done (Some (ps, c)) (if snd ps && negb match c with CNative => true | _ => false end then fail s2 else s2)
      end)).
(* 6016-6083: one more token, whatever the function came to; 6072 *)
Definition function (over virt constr : bool) (ty id : N) (s : st) : res (option func) :=
  sbind (funcRest virt constr s) (fun r s1 =>
    let s2 := look s1 in
    match r with
    | None => Done None (drop s2)
    | Some (ps, dots, c) =>
      let f := {| f_override := over; f_virtual := virt; f_constr := constr; f_ty := ty; f_id := id; f_params := ps; f_dots := dots; f_code := c |} in
      match hd_tok (toks s2), c with
      | CloseC, _ | Semi, _ => Done (Some f) (drop s2)
      | _, CNative => Done None (fail (drop s2))
      | _, _ => Done (Some f) (drop s2)
      end
    end).

(* ---- members ---- *)
(* 1057-1099 *)
Fixpoint restOfMembers (fuel : nat) (ty : N) (acc : list member) (s : st) : res (bool * list member) :=
  match fuel with
  | O => Fuel
  | S g =>
    let s1 := look s in
    match hd_tok (toks s1) with
    | E TComma =>
      let s2 := look (drop s1) in
      match hd_tok (toks s2) with
      | E (TIdent i) => initial (drop s2) (fun n s3 => restOfMembers g ty (acc ++ [MVar ty i n]) s3)
      | _ => Done (false, acc) (skip (drop s2))
      end
    | _ => Done (true, acc) s1
    end
  end.
(* 2286-2353; name: the class *)
Definition typedef (name : N) (s : st) : res (bool * list member) :=
  let s1 := look s in
  match hd_tok (toks s1) with
  | E TLocal => Unmodelled
  | E (TType t) =>
    let s2 := look (drop s1) in
    match hd_tok (toks s2) with
    | E (TType a) =>
      match kind a with
      | KdName => if a =? name then Done (false, []) (fail (drop s2)) else
                  match tok_of (drop s2) with E TOpenSq | E TSquare => Unmodelled | _ => Done (true, [MTypedef t a]) (drop s2) end
      | KdArgs _ => Unmodelled
      | _ => Done (false, []) (fail (drop s2))
      end
    | _ => Done (false, []) (fail (drop s2))
    end
  | _ => Done (false, []) (fail (drop s1))
  end.
(* 2355-2432 *)
Definition constdef (s : st) : res (bool * list member) :=
  let s1 := look s in
  let bad := Done (false, []) (let s2 := fail (drop s1) in set_toks s2 (until Semi (toks s2))) in
  match hd_tok (toks s1) with
  | E TLocal => Unmodelled
  | E (TType t) =>
    match kind t with
    | KdVoid => bad
    | _ =>
      if isref t then Unmodelled else
      let s2 := look (drop s1) in
      match hd_tok (toks s2) with
      | E (TIdent i) =>
        match tok_of (drop s2) with
        | E TOpen | E TOpenSq | E TSquare => Unmodelled
        | _ => constantDef true true (drop s2) (fun r s3 => Done (match r with Some n => (true, [MConst t i n]) | None => (false, []) end) s3)
        end
      | _ => Done (false, []) (fail (drop s2))
      end
    end
  | _ => bad
  end.
(* 2495-2561 *)
Definition modelParameter (element : bool) (s : st) : res (bool * list member) :=
  let s1 := look s in
  if negb element then Done (false, []) (let s2 := fail (drop s1) in set_toks s2 (until Semi (toks s2))) else
  match hd_tok (toks s1) with
  | E TLocal => Unmodelled
  | E (TType t) =>
    match kind t with
    | KdVoid | KdAtom => Done (false, []) (fail s1)
    | _ =>
      if isref t then Unmodelled else
      let s2 := look (drop s1) in
      match hd_tok (toks s2) with
      | E (TIdent i) =>
        match tok_of (drop s2) with
        | E TOpen | E TOpenSq | E TSquare => Unmodelled
        | _ => parameterDef (drop s2) (fun r s3 => Done (match r with Some n => (true, [MParam t i n]) | None => (false, []) end) s3)
        end
      | _ => Done (false, []) (fail (drop s2))
      end
    end
  | _ => Done (false, []) (fail s1)
  end.
(* 1042-1053 *)
Definition memberEnd (r : res (bool * list member)) : res (bool * list member) :=
  sbind r (fun a s => if fst a then expect false Semi s (Done (true, snd a)) (fun s1 => Done (false, snd a) (set_toks s1 (until Semi (toks s1)))) else Done a s).
(* 901-1040; over, virt: insureVirtualOverride, isVirtual; word: pTok is the keyword virtual *)
Definition varOrFunc (over virt word : bool) (s : st) : res (bool * list member) :=
  let s1 := look s in
  let func constr ty id s := sbind (function over virt constr ty id s) (fun f s1 => Done (match f with Some f => (true, [MFunc f]) | None => (false, []) end) s1) in
  match hd_tok (toks s1) with
  | E TLocal => Unmodelled
  (* 2696: the assertion that this is a parameter of a function *)
  | KConst => match tok_of (drop s1) with E (TType _) => Fault | _ => Done (false, []) (fail (look (drop s1))) end
  | E (TType t) =>
    let s2 := look (drop s1) in
    match hd_tok (toks s2) with
    | E (TIdent i) =>
      let s3 := look (drop s2) in
      match hd_tok (toks s3) with
      | E TOpen => func false t i (drop s3)
      | E TOpenSq | E TSquare => Unmodelled
      | _ =>
        let s4 := if virt then fail s3 else s3 in
        if isref t then Done (false, []) (fail s4)
        else memberEnd (initial s4 (fun n s5 => restOfMembers (S (length (toks s5))) t [MVar t i n] s5))
      end
    | E TOpen => match kind t, word with KdSelf, false => func true t 0 (drop s2) | _, _ => Done (false, []) (fail s2) end
    | _ => Done (false, []) (fail s2)
    end
  | _ => Done (false, []) (fail s1)
  end.
(* 864-1055; the answer, and what was appended *)
Definition dataMember (element : bool) (name : N) (s : st) : res (bool * list member) :=
  let s1 := look s in
  match hd_tok (toks s1) with
  | CloseC => Done (false, []) s1
  | KTypedef => memberEnd (typedef name (drop s1))
  | KConst => memberEnd (constdef (drop s1))
  | Other WParameter => memberEnd (modelParameter element (drop s1))
  | KOverride =>
    let s2 := look (drop s1) in
    match hd_tok (toks s2) with Other WVirtual => varOrFunc true true true (drop s2) | _ => varOrFunc true true false s2 end
  | Other WVirtual => varOrFunc false true true (drop s1)
  | _ => varOrFunc false false false s1
  end.
(* 495 *)
Fixpoint dataMembers (fuel : nat) (element : bool) (name : N) (acc : list member) (s : st) : res (list member) :=
  match fuel with
  | O => Fuel
  | S g => sbind (dataMember element name s) (fun r s1 => if fst r then dataMembers g element name (acc ++ snd r) s1 else Done (acc ++ snd r) s1)
  end.

(* ---- classes ---- *)
(* 408-526 *)
Definition classBlock (k : ckind) (conc : bool) (name : N) (s : st) : res (option cls) :=
  let s1 := look s in
  sbind (match hd_tok (toks s1) with E TOpen => classParams (S (length (toks s1))) [] (drop s1) | _ => Done [] s1 end) (fun ps s2 =>
  let s3 := look s2 in
  sbind (match hd_tok (toks s3) with E TColon => sbind (baseClass name (drop s3)) (fun b s4 => Done (match b with Some t => SIs t | None => SUnset end) s4)
         | _ => Done SDefault s3 end) (fun sup s4 =>
  sbind (baseClasses (S (length (toks s4))) name [] s4) (fun bs s5 =>
  let made ms := Some {| c_kind := k; c_concrete := conc; c_name := name; c_params := ps; c_super := sup; c_bases := bs; c_members := ms |} in
  expect false OpenC s5 (fun s6 =>
    expect true CloseC s6 (Done (made [])) (fun s7 =>
      sbind (dataMembers (S (length (toks s7))) (match k with Element => true | _ => false end) name [] s7) (fun ms s8 =>
        expect true CloseC s8 (Done (made ms)) (Done None))))
    (Done None)))).
Definition kind_of (t : stok) : option ckind :=
  match t with Other WElement => Some Element | Other WQuark => Some Quark | Other WUnion => Some Union | Other WTransient => Some Transient | _ => None end.
(* 177-397: whether it is the end, and the class *)
Fixpoint thisClass (fuel : nat) (conc : bool) (s : st) : res (bool * list cls) :=
  match fuel with
  | O => Fuel
  | S g =>
    let s1 := look s in
    match kind_of (hd_tok (toks s1)) with
    | Some k =>
      let s2 := look (drop s1) in
      match hd_tok (toks s2) with
      | E (TType t) =>
        match kind t with
        | KdName => sbind (classBlock k conc t (drop s2)) (fun c s3 => match c with Some c => Done (false, [c]) s3 | None => Done (false, []) (fail s3) end)
        | KdArgs _ => Unmodelled
        | _ => Done (true, []) (fail (drop s2))
        end
      | _ => Done (true, []) (fail (drop s2))
      end
    | None =>
      match hd_tok (toks s1) with
      | E TEnd => Done (true, []) (drop s1)
      | E TLocal => Unmodelled
      | Other WConcrete => thisClass g true (drop s1)
      | _ => Done (true, []) (fail (drop s1))
      end
    end
  end.
(* 125: the classes of a file, in order *)
Fixpoint parseFile (fuel : nat) (acc : list cls) (s : st) : res (list cls) :=
  match fuel with
  | O => Fuel
  | S g => sbind (thisClass (S (length (toks s))) false s) (fun r s1 => if fst r then Done (acc ++ snd r) s1 else parseFile g (acc ++ snd r) s1)
  end.
Definition parse (ts : list stok) : res (list cls) := parseFile (S (length ts)) [] (start ts).
End Parse.

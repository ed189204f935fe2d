(* ConstResModel.v: the values of the named constants of the classes of a program.
   Transcribes src/ulam/Compiler.cpp:233-262 (checkAndTypeLabelProgram: the loop) and 377-393 (resolvingLoop: its last line),
   SymbolTableOfClasses.cpp labelTableOfClasses and updateLineageForTableOfClasses (the classes in the order of the table, once before the
   loop), NodeBlockClass.cpp checkAndLabelType and NodeStatements.cpp checkAndLabelType (the members in the order written),
   NodeConstantDef.cpp:358-797 (checkAndLabelType) and 895-1107 (foldConstantExpression), NodeConstant.cpp:172-313 (checkAndLabelType),
   354-369 (updateConstant), NodeBinaryOp.cpp checkAndLabelType and constantFold.
   Simplifications: primitive scalar constants of regular classes whose types do not depend on a constant; every name used is defined in
   the class or an ancestor already known; the types being fixed, an operator is a function of the values of its operands, which may be
   in error (division by zero, overflow), and so is the cast to the type declared (None: not representable); operators evaluate both
   operands; nothing else in the program is hazy. *)
From Coq Require Import List NArith ZArith Bool.
Import ListNotations.
Open Scope N_scope.

Inductive ex := EVal (v : Z) | EName (i : N) | EOp (o : Z -> Z -> option Z) (l r : ex).
Record def := { d_id : N; d_ex : ex; d_fit : Z -> option Z }.

(* the symbols ready, with their values *)
Definition env := N -> option Z.
Definition set (r : env) (i : N) (v : Z) : env := fun j => if j =? i then Some v else r j.

(* what checkAndLabelType answers: a type, and then the constant is ready; Hzy; Nav *)
Inductive out := Ready (v : Z) | Hazy | Nav.
(* NodeConstant.cpp:172-313, NodeTerminal, NodeBinaryOp.cpp; the second: a message ERR was given *)
Fixpoint label (r : env) (e : ex) : out * bool :=
  match e with
  | EVal v => (Ready v, false)
  | EName i => match r i with Some v => (Ready v, false) | None => (Hazy, false) end
  | EOp o a b =>
    let '(x, e1) := label r a in
    let '(y, e2) := label r b in
    match x with
    | Ready u =>
      match y with
      | Ready v => match o u v with Some w => (Ready w, e1 || e2) | None => (Nav, true) end
      | _ => (y, e1 || e2)
      end
    | _ => (x, e1 || e2)
    end
  end.
(* NodeConstantDef.cpp:358-797; what is hazy: a message WAIT, and setGoAgain *)
Definition labelDef (r : env) (d : def) : env * bool * bool :=
  match label r (d_ex d) with
  | (Nav, _) => (r, false, true)
  | (Hazy, e) => (r, true, e)
  | (Ready v, e) =>
    match r (d_id d) with
    | Some _ => (r, false, e)
    | None => match d_fit d v with Some w => (set r (d_id d) w, false, e) | None => (r, false, true) end
    end
  end.
(* one time through all classes: whether anything was hazy, whether there was an error *)
Fixpoint pass (r : env) (ds : list def) : env * bool * bool :=
  match ds with
  | [] => (r, false, false)
  | d :: ds =>
    let '(r1, h1, e1) := labelDef r d in
    let '(r2, h2, e2) := pass r1 ds in (r2, h1 || h2, e1 || e2)
  end.

Definition MAX_ITERATIONS : nat := 99.
(* Compiler.cpp:245-262; left: how many more iterations until infcounter exceeds MAX_ITERATIONS; the last one in the mode in which WAIT is
   an error *)
Fixpoint loop (left : nat) (r : env) (ds : list def) : option env :=
  match left with
  | O => None
  | S n =>
    let '(r1, h, e) := pass r ds in
    if e then None else if h then match n with O => None | _ => loop n r1 ds end else Some r1
  end.
(* 233-262; None: refused *)
Definition resolve (ds : list def) : option env :=
  let '(r1, _, e) := pass (fun _ => None) ds in if e then None else loop (S MAX_ITERATIONS) r1 ds.

(* StdNumModel.v: the numbers that ulam code computes with: used to transcribe the standard library (share/ulam/stdlib), which is
   written in ulam.  An expression has a kind, a width and a value; the type of an operation is the one that the compiler gives it
   (ArithModel.resultType: NodeBinaryOpArith.cpp:55-104 and resultBitsize, castThyselfToResultType of the five operations), its value
   is brought into the range of that type (C53, C25); an explicit cast brings the value into the range of the type (C74, C23).
   Comparisons compare the numbers (C63).  None: a division by zero (the evaluator and the generated code fail), or no type.
   Simplification: the operands of an operation are taken to be brought into its type without change, which the compiler checks
   (checkSafeToCastTo, NodeBinaryOp.cpp:273-303). *)
From Coq Require Import List NArith ZArith Bool.
From Verif Require Import Base UTypeModel AtomModel PrimModel ArithModel.
Import ListNotations.
Open Scope Z_scope.

Record num := mkNum { n_e : etype; n_w : Z; n_v : Z }.
Definition tyOf (x : num) : utype := prim (n_e x) (n_w x) (-1).
(* maxof and minof: C24 *)
Definition maxof (e : etype) (w : Z) : Z := match e with EInt => 2 ^ (w - 1) - 1 | EUnary => w | _ => 2 ^ w - 1 end.
Definition minof (e : etype) (w : Z) : Z := match e with EInt => - 2 ^ (w - 1) | _ => 0 end.
Definition clamp (e : etype) (w z : Z) : Z := Z.max (minof e w) (Z.min (maxof e w) z).
(* (T) x *)
Definition to (e : etype) (w : Z) (x : num) : num := mkNum e w (clamp e w (n_v x)).
(* x op y *)
Definition binop (op : arithop) (x y : num) : option num :=
  match calcNodeType op (tyOf x) (tyOf y) with
  | None => None
  | Some t =>
    if isDivision op && (n_v y =? 0) then None
    else match castThyselfToResultType op (tyOf x) (tyOf y) t with
         | None => None
         | Some r => Some (to (ty_enum r) (ty_bits r) (mkNum (ty_enum t) (ty_bits t) (clamp (ty_enum t) (ty_bits t) (apply_op op (n_v x) (n_v y)))))
         end
  end.
Definition U (w v : Z) : num := mkNum EUnsigned w v.
Definition I (w v : Z) : num := mkNum EInt w v.

(* ModelParamModel.v: the parameters of an element ("model parameters"), which have a default value and can be changed while the
   program runs.
   Transcribes src/ulam/NodeModelParameterDef.cpp:49-67 (checkAndLabelType), 129-241 (foldConstantExpression),
   src/ulam/NodeModelParameter.cpp:43-59 (isAConstant, safeToCastTo), 122-125 (genCodeToStoreInto), src/ulam/SymbolWithValue.cpp:96-107,
   119-124 (getValue, setValue) and src/ulam/NodeConstant.cpp:680-695 (updateConstant).
   Simplifications: the type of the parameter is known, and its expression has been folded into a constant (NodeTerminal; C52, C53);
   messages are dropped, except that an error was reported is MNav. *)
From Coq Require Import NArith ZArith Bool.
From Verif Require Import Base UTypeModel AtomModel PrimModel FoldModel.
Open Scope N_scope.

Inductive mres := MNav | MHzy | MAbort | MVal (stored : N).

(* NodeModelParameterDef.cpp:129-241: the bits of the default; 237-238 with SymbolWithValue.cpp:96-107, 119-124: as many bits are kept as the type has *)
Definition foldDefault (t lt : utype) (c : N) : mres :=
  match terminalValue lt c with
  | None => MAbort
  | Some v =>
    match literalSafeToCastTo lt c t with
    | None => MAbort
    | Some CAST_BAD => MNav
    | Some CAST_HAZY => MHzy
    | Some CAST_CLEAR =>
      match cast t v with
      | CastAbort => MAbort
      | CastFalse => MNav
      | CastVal r =>
        match (if (getTotalWordSize t =? 32)%Z then valData r else if (getTotalWordSize t =? 64)%Z then valDataLong r else None) with
        | None => MAbort
        | Some d => MVal (d mod 2 ^ Z.to_N (getTotalBitSize t))
        end
      end
    end
  end.
(* NodeModelParameterDef.cpp:49-67: the whole check of parameter t p = c *)
Definition checkParameter (t lt : utype) (c : N) : mres :=
  match foldDefault t lt c with
  | MVal d => if (getTotalWordSize t >? 32)%Z then MNav else MVal d
  | r => r
  end.

(* NodeModelParameter.cpp:48-59: a use where type dest is wanted, default c *)
Definition paramSafeToCastTo (t : utype) (c : N) (dest : utype) : option forecast :=
  match safeCast dest t with
  | Some CAST_CLEAR => literalSafeToCastTo t c dest
  | f => f
  end.
(* NodeModelParameter.cpp:43-46, NodeTerminal.cpp isAConstant: whether a use is folded as a constant; the value of a constant *)
Definition paramIsAConstant : bool := false.
(* the evaluator: NodeConstant.cpp:612-621 with NodeTerminal.cpp:230-241 *)
Definition paramEval (t : utype) (c : N) : option uval := terminalValue t c.

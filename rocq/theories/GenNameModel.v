(* GenNameModel.v: the names that occur in the body of a generated C++ function.
   Transcribes src/ulam/CompilerState.cpp:6729-6878 (the temporaries and labels), Symbol.cpp:235-253 and :280-283 (user names), the
   prefixes in SymbolVariableStack.cpp:46-51, SymbolVariableDataMember.cpp:40-57, SymbolConstantValue.cpp:35-49, SymbolFunction.cpp:171-174 and
   :226-232, SymbolTmpVar.cpp:27-30, and NodeVarDecl.cpp:1461 and NodeConstantDef.cpp:1724 (_init).
   A number of a temporary is a positive s32 (getNextTmpVarNumber counts up from 1). *)
From Coq Require Import String List NArith ZArith Bool.
From Verif Require Import Base LeximitedModel.
Import ListNotations.
Open Scope N_scope.

(* enum TMPSTORAGE, the values that getTmpVarAsString takes *)
Inductive tmpstorage := TMPREGISTER | TMPARRAYIDX | TMPBITVAL | TMPAUTOREF | TMPTATOM | TMPATOMBS | TMPTBV.
Definition lexnum (num : N) : text := ToLeximitedNumber32s (Z.of_N num).
(* CompilerState.cpp:6745-6810; loadable: determinePackable(uti) is PACKEDLOADABLE *)
Definition getTmpVarAsString (loadable : bool) (num : N) (stg : tmpstorage) : text :=
  (match stg with
   | TMPREGISTER | TMPARRAYIDX => if loadable then txt "Uh_5tlreg" else txt "Uh_5tureg"
   | TMPBITVAL => if loadable then txt "Uh_5tlval" else txt "Uh_5tuval"
   | TMPAUTOREF => if loadable then txt "Uh_6tlref" else txt "Uh_6turef"
   | TMPTATOM => txt "Uh_3tut"
   | TMPATOMBS => txt "Uh_4tabs"
   | TMPTBV => if loadable then txt "Uh_3tlbv" else txt "Uh_3tubv"
   end) ++ lexnum num.
(* :6812-6879 *)
Definition getUlamRefTmpVarAsString (num : N) : text := txt "Uh_3tur" ++ lexnum num.
Definition getUlamRefMutTmpVarAsString (num : N) : text := txt "Uh_4turm" ++ lexnum num.
Definition getUlamClassTmpVarAsString (num : N) : text := txt "Uh_7tuclass" ++ lexnum num.
Definition getUlamClassRegistryTmpVarAsString (num : N) : text := txt "Uh_4tucr" ++ lexnum num.
Definition getAtomBitStorageTmpVarAsString (num : N) : text := txt "Uh_4tabs" ++ lexnum num.
Definition getLabelNumAsString (num : N) : text := txt "Ul_214endcontrolloop" ++ lexnum num.
Definition getSwitchConditionNumAsString (num : N) : text := txt "Uh_switchcond" ++ lexnum num.
Definition getInitDoneVarAsString (num : N) : text := txt "Uh_8initdone" ++ lexnum num.
Definition getVFuncPtrTmpNumAsString (num : N) : text := txt "Uf_tvfp" ++ lexnum num.
(* :6735-6743 *)
Definition isStringATmpVar (name : text) : bool :=
  match name with
  | a :: b :: c :: _ :: _ => (a =? 85) && (b =? 104) && (c =? 95)
  | _ => false
  end.
(* CompilerState.cpp:5532-5538 *)
Definition mangled (name : text) : text := ToLeximited name.
(* SymbolVariableStack::getMangledPrefix; isref: ALT_REF *)
Definition varName (isref : bool) (name : text) : text := (if isref then txt "Ur_" else txt "Uv_") ++ mangled name.
(* SymbolVariableDataMember.cpp:45-57, Symbol.cpp:280-283 *)
Definition memberName (isaclass : bool) (name : text) : text := (if isaclass then txt "Ut_" else txt "Up_") ++ txt "Um_" ++ mangled name.
(* SymbolConstantValue.cpp:35-49 *)
Definition constantName (name : text) : text := txt "Uc_" ++ mangled name.
(* SymbolFunction.cpp:227-261; types: the text of the parameters' types *)
Definition functionName (name : text) (nparams : N) (types : text) : text := txt "Uf_" ++ mangled name ++ ToLeximitedNumber32u nparams ++ types.
(* NodeVarDecl.cpp:1461-1462, NodeConstantDef.cpp:1724-1725: the array of initial values *)
Definition initName (name : text) : text := txt "_init" ++ name.
(* CompilerState.cpp:5691-5699 *)
Definition hiddenArg : text := txt "ur".
Definition hiddenContext : text := txt "uc".

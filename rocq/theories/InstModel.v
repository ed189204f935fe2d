(* InstModel.v: the instances of one class template: every use of the template makes a stub with a type index of its
   own; stubs whose arguments are known become classes, or are merged with the class of the same arguments.
   Transcribes src/ulam/SymbolClassNameTemplate.cpp:315-342 (findClassInstanceByArgString, addClassInstanceUTI,
   addClassInstanceByArgString), 1254-1384 (fullyInstantiate), src/ulam/CompilerState.cpp:446-474
   (replaceUTIKeyAndAlias, its count), 842-861 (incrementKeyToAnyUTICounter), 2274-2304 (mergeClassUTI).
   Simplifications: a class symbol is named by its own type index.  Which stubs are skipped (1280-1284), are copies
   (1292-1297), wait for arguments (1300-1305) or for their base classes (1332-1337) in a round is given; the argument
   string is given too (it is C54's subject).  A template that has no definition yet (1262-1272) is left out.  The
   stubs are scalar classes and no references, so that mergeClassUTI does not return early (2282-2283).  What is copied
   into the class (1339-1371) is left out, the stub copies that the check of the bases makes belong to other templates
   (1443-1445). *)
From Coq Require Import List NArith Bool.
From Verif Require Import Base SourceStreamModel.
Import ListNotations.
Open Scope N_scope.

(* std::map<UTI, ...> as a list of pairs *)
Fixpoint get {A} (m : list (N * A)) (u : N) : option A :=
  match m with [] => None | (k, a) :: r => if k =? u then Some a else get r u end.
Fixpoint put {A} (m : list (N * A)) (u : N) (a : A) : list (N * A) :=
  match m with [] => [] | (k, b) :: r => if k =? u then (k, a) :: r else (k, b) :: put r u a end.
(* a new key, in its place in the order *)
Fixpoint insert {A} (m : list (N * A)) (u : N) (a : A) : list (N * A) :=
  match m with [] => [(u, a)] | (k, b) :: r => if u <? k then (u, a) :: m else (k, b) :: insert r u a end.

(* std::map<std::string, SymbolClass *>::find *)
Fixpoint find_text (m : list (text * N)) (s : text) : option N :=
  match m with [] => None | (k, a) :: r => if list_eq_dec N.eq_dec k s then Some a else find_text r s end.

Record state := mkSt {
  insts : list (N * N);        (* m_scalarClassInstanceIdxToSymbolPtr *)
  strs : list (text * N);      (* m_scalarClassArgStringsToSymbolPtr *)
  full : list N;               (* the symbols that are no stubs any more *)
  root : list (N * N);         (* m_unionRootUTI of the stubs' indexes *)
  keys : list (N * N) }.       (* m_indexToUlamKey: of each index, the class of its key *)
Definition empty : state := mkSt [] [] [] [] [].

(* what a round finds *)
Record round := mkRound { skipped : N -> bool; copy : N -> bool; pending : N -> bool; basesReady : N -> bool }.

Section Template.
  (* formatAnInstancesArgValuesAsAString *)
  Variable args : N -> text.

  (* 329-335: a new stub; None: the index is in use already (assertion) *)
  Definition use (st : state) (u : N) : option state :=
    match get (insts st) u with
    | Some _ => None
    | None => Some (mkSt (insert (insts st) u u) (strs st) (full st) (insert (root st) u u) (insert (keys st) u u))
    end.

  Definition isFull (st : state) (s : N) : bool := existsb (N.eqb s) (full st).

  (* CompilerState.cpp:446-474: the index gets the key and the alias; and the number of indexes with this key *)
  Definition replaceUTIKeyAndAlias (st : state) (old new : N) : state * N :=
    let ks := put (keys st) old new in
    (mkSt (insts st) (strs st) (full st) (put (root st) old new) ks,
     N.of_nat (length (filter (fun p => snd p =? new) ks))).

  (* CompilerState.cpp:2274-2304; the number is not 0 when there are too many copies *)
  Definition mergeClassUTI (st : state) (old cuti : N) : state * N :=
    let (st', count) := replaceUTIKeyAndAlias st old cuti in
    (st', if (100 <? old) && (old / 10 <=? count) then count else 0).

  (* SymbolClassNameTemplate.cpp:1275-1380: one turn of the loop; the boolean is aok.  None: an assertion *)
  Definition turn (e : round) (acc : option (state * bool)) (u : N) : option (state * bool) :=
    match acc with
    | None => None
    | Some (st, aok) =>
      match get (insts st) u with
      | None => None
      | Some s =>
        if skipped e s then Some (st, aok)
        else if isFull st s then Some (st, aok)
        else if copy e s then Some (st, aok)
        else if pending e s then Some (st, false)
        else match find_text (strs st) (args s) with
             | Some d =>
               if isFull st d then
                 let (st', toomany) := mergeClassUTI st s d in
                 Some (mkSt (put (insts st') u d) (strs st') (full st') (root st') (keys st'), aok && (toomany =? 0))
               else None
             | None =>
               if basesReady e s
               then Some (mkSt (insts st) (strs st ++ [(args s, s)]) (s :: full st) (root st) (keys st), aok)
               else Some (st, false)
             end
      end
    end.

  (* 1254-1384 *)
  Definition fullyInstantiate (e : round) (st : state) : option (state * bool) :=
    fold_left (turn e) (map fst (insts st)) (Some (st, true)).

  (* a compilation: uses, and rounds *)
  Inductive op := Use (u : N) | Round (e : round).
  Fixpoint run (ops : list op) (st : state) : option state :=
    match ops with
    | [] => Some st
    | Use u :: r => match use st u with Some st' => run r st' | None => None end
    | Round e :: r => match fullyInstantiate e st with Some (st', _) => run r st' | None => None end
    end.
End Template.

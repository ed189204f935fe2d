(* PickModel.v: random choice among sites.
   Transcribes share/ulam/stdlib/WindowScanner.ulam:25-120 (one category), WindowServices.ulam:50-74,137-160 (one slot) and
   share/ulam/misc/SelectorServices.ulam:16-137.
   EXTERNAL: random.create(n), n > 0, is one of 0 .. n - 1, each as likely as the others (Random.ulam:19,
   Uq_10106Random10_native.tcc:11-16, MFM's Random::Create); what a program may become by a draw is the list of what it becomes by each
   of the n numbers, so that a result is as likely as it is frequent in the list.  create(0) has no result.
   Sums: += on Unsigned(n) and casts to it bring the sum into the range of the type (C25, C53).
   Simplifications: one category (slot) alone, the others being apart from it in the arrays; a category that is in use. *)
From Coq Require Import List NArith ZArith Bool.
From Verif Require Import Base UTypeModel PrimModel StdNumModel.
Import ListNotations.
Open Scope Z_scope.

Definition draws (n : Z) : list Z := map Z.of_nat (seq 0 (Z.to_nat n)).

(* ---- WindowScanner ---- *)
Record cat := mkCat { c_site : Z; c_weight : Z; c_ismax : bool; c_max : Z }.
(* EventWindow.SiteNum is Unsigned(6): WindowScanner.ulam:14 *)
Definition noSite : Z := maxof EUnsigned 6.
(* WindowScanner.ulam:70-75 *)
Definition initScan (c : cat) : cat := mkCat noSite 0 (c_ismax c) (c_max c).
(* WindowScanner.ulam:95-114: what a category may become *)
Definition categorize (c : cat) (sn weight : Z) : list cat :=
  let w := weight in
  let '(w, c) :=
    if c_ismax c then
      if weight <? c_max c then (0, c)
      else (1, if weight >? c_max c then mkCat (c_site c) 0 (c_ismax c) weight else c)
    else (w, c) in
  let c := mkCat (c_site c) (clamp EUnsigned 32 (c_weight c + weight)) (c_ismax c) (c_max c) in
  if c_weight c =? 0 then [c]
  else map (fun d => if d <? weight then mkCat sn (c_weight c) (c_ismax c) (c_max c) else c) (draws (c_weight c)).
(* the visits of a scan, in order: sites and their weights *)
Fixpoint visits (l : list (Z * Z)) (c : cat) : list cat :=
  match l with [] => [c] | (sn, w) :: r => flat_map (visits r) (categorize c sn w) end.
(* WindowScanner.ulam:116-121 *)
Definition getHits (c : cat) : Z := c_weight c.
Definition getMax (c : cat) : Z := if negb (c_ismax c) then 0 else c_max c.
Definition getSiteNum (c : cat) : Z := c_site c.

(* ---- WindowServices ---- *)
Record slot := mkSlot { s_count : Z; s_chosen : Z }.
(* WindowServices.ulam:68-74 *)
Definition reset : slot := mkSlot 0 0.
(* WindowServices.ulam:137-144; Count is Unsigned(8) *)
Definition hit (s : slot) (currentIndex weight : Z) : list slot :=
  let n := clamp EUnsigned 8 (clamp EUnsigned 32 (s_count s + weight)) in
  map (fun d => if d <? weight then mkSlot n currentIndex else mkSlot n (s_chosen s)) (draws n).
Fixpoint hits (l : list (Z * Z)) (s : slot) : list slot :=
  match l with [] => [s] | (i, w) :: r => flat_map (hits r) (hit s i w) end.
(* WindowServices.ulam:156-160 *)
Definition getPick (s : slot) : Z := if s_count s =? 0 then maxof EUnsigned 6 else s_chosen s.

(* ---- SelectorServices ---- *)
Record sel := mkSel { l_c : Z; l_k : Z; l_v : Z }.
(* SelectorServices.ulam:35 *)
Definition selReset (s : sel) : sel := mkSel 0 (l_k s) (l_v s).
(* :110-113; Key is Int(16) *)
Definition take (s : sel) (key value : Z) : sel := mkSel (l_c s) (clamp EInt 16 key) value.
(* :119-135; Count is Unsigned(16) *)
Definition check (s : sel) (key value weight : Z) : list (sel * bool) :=
  if weight <=? 0 then [(s, false)]
  else
    let u := clamp EUnsigned 16 weight in
    if l_c s =? 0 then [(take (mkSel u (l_k s) (l_v s)) key value, false)]
    else if l_v s =? value then
      let n := clamp EUnsigned 16 (l_c s + u) in
      let s := mkSel n (l_k s) (l_v s) in
      map (fun d => (if d <? u then take s key value else s, false)) (draws n)
    else [(s, true)].
(* :79-81 and :56-58 *)
Definition maximize (s : sel) (key value : Z) : list sel :=
  map (fun r => if snd r && (value >? l_v (fst r)) then take (fst r) key value else fst r) (check s key value 1).
Definition minimize (s : sel) (key value : Z) : list sel :=
  map (fun r => if snd r && (value <? l_v (fst r)) then take (fst r) key value else fst r) (check s key value 1).
(* :93 *)
Definition count (s : sel) (key weight : Z) : list sel := map fst (check s key 1 weight).
Fixpoint maximizes (l : list (Z * Z)) (s : sel) : list sel := match l with [] => [s] | (k, v) :: r => flat_map (maximizes r) (maximize s k v) end.
Fixpoint minimizes (l : list (Z * Z)) (s : sel) : list sel := match l with [] => [s] | (k, v) :: r => flat_map (minimizes r) (minimize s k v) end.
Fixpoint counts (l : list (Z * Z)) (s : sel) : list sel := match l with [] => [s] | (k, w) :: r => flat_map (counts r) (count s k w) end.

(* DefaultSpec.v: what default values and initialiser lists should mean, on lists of bits, the first bit first.
   The positions of members and base parts are those of LayoutModel.v; C37 says that they are disjoint and fill the class. *)
From Coq Require Import String List NArith ZArith Bool.
From Verif Require Import Base TypeTableModel FamilyModel FamilyProofs BitVec UTypeModel AtomModel AtomSpec LayoutModel LayoutSpec LayoutTheorems DefaultModel.
Import ListNotations.
Open Scope N_scope.

(* the first n bits of a vector of 8192 bits *)
Definition front (n v : N) : list bool := slice 0 (N.to_nat n) (bits8k v).
(* the n bits from p on *)
Definition part (p n : N) (l : list bool) : list bool := slice (N.to_nat p) (N.to_nat n) l.
Definition zeros (n : N) : list bool := repeat false (N.to_nat n).
(* bits of one item of an array *)
Definition one_size (m : mtype) : N := if mt_element m then 96 else mt_bits m.
Definition one (m : mtype) : mtype := {| mt_bits := mt_bits m; mt_array := None; mt_element := mt_element m |}.
Definition nitems (m : mtype) : N := match mt_array m with Some n => n | None => 1 end.

Section Spec.
Variable root : N -> N.
Variable classes : N -> option lclass.
Variable compare : N -> N -> cmp.
Variable members : N -> list dmember.
Notation ancestor := (ancestor root (fun x => option_map lc_bases (classes x))).

Definition first_bit (c : N) : N := match classes c with Some {| lc_kind := Element |} => 25 | _ => 0 end.
Definition class_size (c : N) : N := match classes c with Some {| lc_kind := Element |} => 96 | _ => totalbits root classes c end.
(* where the part of class a is in class c: after the header *)
Definition base_at (c a : N) : N := first_bit c + (if c =? a then 0 else base_position root classes compare c a).
Definition offset_of (a : N) (i : nat) : N := match packBits root classes compare a with Some p => nth i (pk_members p) 0 | None => 0 end.
(* member i that class a declares, of type m and declaration d, is at q in class c *)
Definition member_at (c a : N) (i : nat) (m : mtype) (d : dmember) (q : N) : Prop :=
  (c = a \/ a <> 0 /\ ancestor c a) /\ (exists k, classes a = Some k /\ nth_error (lc_members k) i = Some m) /\ nth_error (members a) i = Some d /\
  q = base_at c a + offset_of a i.

(* post is what initialiser e makes of the bits pre of a value of type m (and class) *)
Inductive initialised : cinit -> option N -> mtype -> list bool -> list bool -> Prop :=
| I_keep cls m pre : initialised CKeep cls m pre pre
| I_number v m pre : initialised (CNumber v) None m pre (msb_bits (N.to_nat (member_size m)) v)
| I_value v cls m pre : initialised (CValue v) cls m pre (front (member_size m) v)
  (* item i gets the value of its initialiser, the items without one that of the last *)
| I_items l cls m n pre post : mt_array m = Some n -> List.length post = N.to_nat (member_size m) ->
  (forall i e, nth_error l i = Some e -> N.of_nat i < n -> initialised e cls (one m) (part (N.of_nat i * one_size m) (one_size m) pre) (part (N.of_nat i * one_size m) (one_size m) post)) ->
  (forall i, N.of_nat (List.length l) <= i < n -> part (i * one_size m) (one_size m) post = part ((N.of_nat (List.length l) - 1) * one_size m) (one_size m) post) ->
  initialised (CItems l) cls m pre post
  (* the members named get the values of their initialisers, the other bits remain *)
| I_members l c m pre post : List.length post = List.length pre ->
  (forall a i e, In (a, i, e) l -> exists mm d q, member_at c a i mm d q /\ initialised e (dm_class d) mm (part q (member_size mm) pre) (part q (member_size mm) post)) ->
  (forall x, (forall a i e mm d q, In (a, i, e) l -> member_at c a i mm d q -> x < q \/ q + member_size mm <= x) -> nth (N.to_nat x) post false = nth (N.to_nat x) pre false) ->
  initialised (CMembers l) (Some c) m pre post.

(* the initialisers that make sense for a member *)
Inductive init_ok : cinit -> option N -> mtype -> Prop :=
| K_keep cls m n : mt_array m = Some n -> init_ok CKeep cls m
| K_number v m : mt_array m = None -> member_size m <= 64 -> init_ok (CNumber v) None m
| K_value v cls m : cls = None \/ mt_array m = None -> init_ok (CValue v) cls m
| K_numbers l m n : mt_array m = Some n -> 1 <= one_size m <= 64 -> l <> [] -> N.of_nat (List.length l) <= n -> (forall e, In e l -> exists v, e = CNumber v) -> init_ok (CItems l) None m
| K_items l c m n : mt_array m = Some n -> l <> [] -> N.of_nat (List.length l) <= n -> (forall e, In e l -> init_ok e (Some c) (one m)) -> init_ok (CItems l) (Some c) m
  (* members of the class or its ancestors, none twice, no two of the same union *)
| K_members l c m : mt_array m = None ->
  (forall a i e, In (a, i, e) l -> exists mm d q, member_at c a i mm d q /\ init_ok e (dm_class d) mm) ->
  NoDup (map (fun x => fst x) l) ->
  (forall a i e j e', In (a, i, e) l -> In (a, j, e') l -> i <> j -> match classes a with Some k => lc_union k = false | None => True end) ->
  init_ok (CMembers l) (Some c) m.

(* A program past all checks: the hierarchy is well formed (LayoutSpec.v); the declarations of a class's members agree with its
   layout; everything fits; no base is named twice; unions have no bases (C38) and no initialisers (NodeVarDeclDM.cpp:314-325);
   initialisers make sense. *)
Definition declared (m : mtype) (d : dmember) : Prop :=
  match dm_class d with
  | Some mc => dm_atom d = false /\ (exists k, classes mc = Some k) /\ class_size mc = one_size m
  | None => mt_element m = false /\ (dm_atom d = true -> mt_bits m = 96)
  end.
(* an array declared with an empty list is excluded: see C69_empty_list_refuted *)
Definition dm_init_ok (m : mtype) (d : dmember) : Prop :=
  match dm_init d with
  | None => True
  | Some CKeep => mt_array m = None /\ dm_class d <> None
  | Some (CValue _) => True
  | Some e => init_ok e (dm_class d) m
  end.
Record program (emptyElement : N) (rank : N -> nat) : Prop := {
  p_wf : wf root classes compare;
  p_fits : forall c k, classes c = Some k -> first_bit c + totalbits root classes c <= W8K;
  p_element : forall c k, classes c = Some k -> lc_kind k = Element -> totalbits root classes c <= 71;
  p_nodup : forall c k, classes c = Some k -> NoDup (filter (fun b => negb (b =? 0)) (lc_bases k));
  p_union : forall c k, classes c = Some k -> lc_union k = true -> forall b, In b (lc_bases k) -> b = 0;
  p_union_init : forall c k d, classes c = Some k -> lc_union k = true -> In d (members c) -> dm_init d = None;
  p_members : forall c k, classes c = Some k -> List.length (members c) = List.length (lc_members k);
  p_declared : forall c k i m d, classes c = Some k -> nth_error (lc_members k) i = Some m -> nth_error (members c) i = Some d -> declared m d /\ dm_init_ok m d;
  (* no class in itself, neither as a base nor as a member *)
  p_rank_base : forall c k b, classes c = Some k -> In b (lc_bases k) -> b <> 0 -> (rank b < rank c)%nat;
  p_rank_member : forall c k d mc, classes c = Some k -> In d (members c) -> dm_class d = Some mc -> (rank mc < rank c)%nat;
  p_rank_atom : forall c k d, classes c = Some k -> In d (members c) -> dm_atom d = true -> (rank emptyElement < rank c)%nat;
  p_empty : exists k, classes emptyElement = Some k /\ lc_kind k = Element
}.

(* D : the default value of each class, its first class_size bits *)
Variable D : N -> list bool.
Variable emptyElement : N.
Variable header : N -> N.
(* n times the same *)
Definition times (n : N) (l : list bool) : list bool := concat (repeat l (N.to_nat n)).
(* the bits a member has in a fresh instance *)
Definition member_value (m : mtype) (d : dmember) (l : list bool) : Prop :=
  match dm_atom d, dm_class d, dm_init d with
  | true, _, _ => l = times (nitems m) (D emptyElement)
  | false, Some mc, None => l = times (nitems m) (D mc)
  | false, Some mc, Some CKeep => l = times (nitems m) (D mc)
  | false, Some mc, Some e => initialised e (Some mc) m (times (nitems m) (D mc)) l
  | false, None, None => l = zeros (member_size m)
  | false, None, Some e => initialised e None m (zeros (member_size m)) l
  end.
(* the default value of a class that is not a union *)
Record default_of (c : N) : Prop := {
  d_length : List.length (D c) = N.to_nat (class_size c);
  (* an element's header *)
  d_header : forall k, classes c = Some k -> lc_kind k = Element -> part 0 25 (D c) = msb_bits 25 (header c);
  (* each member that the class declares *)
  d_member : forall k i m d, classes c = Some k -> lc_union k = false -> nth_error (lc_members k) i = Some m -> nth_error (members c) i = Some d ->
    member_value m d (part (first_bit c + offset_of c i) (member_size m) (D c));
  (* the part of each ancestor is as in an instance of the ancestor *)
  d_base : forall a ka, a <> 0 -> ancestor c a -> classes a = Some ka -> part (base_at c a) (own_bits ka) (D c) = part 0 (own_bits ka) (D a);
  (* an element's unused bits *)
  d_rest : part (first_bit c + totalbits root classes c) (class_size c - (first_bit c + totalbits root classes c)) (D c)
           = zeros (class_size c - (first_bit c + totalbits root classes c))
}.
End Spec.

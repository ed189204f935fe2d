(* SourceStreamSpec.v: what a reader of nested files should see, independent of the model. *)
From Coq Require Import List NArith ZArith Bool.
From Verif Require Import Base.
Import ListNotations.
Open Scope N_scope.

(* number of newlines, and bytes after the last newline *)
Definition newlines (s : text) : N := N.of_nat (count_occ N.eq_dec s 10).

Definition column (s : text) : N := fold_left (fun n c => if c =? 10 then 0 else 1 + n) s 0.

(* a text whose positions fit the 16-bit fields of a locator *)
Definition fits (s : text) : Prop :=
  newlines s < 65535 /\ forall k, column (firstn k s) < 65536.

(* position of a reader that has consumed s of file p: nothing read yet is line 0 *)
Definition position := (N * N * N)%type.
Definition position_at (p : N) (s : text) : position :=
  (p, (match s with [] => 0 | _ => 1 + newlines s end), column s).

(* an open file: its name, what was delivered, what is left *)
Definition frame := (N * text * text)%type.

Inductive sop := SpRead | SpUnread | SpPush (f : N) (once : bool).
Inductive sres := SpByte (c : option N) | SpUnit | SpPushed (ok : bool).

Record sst := mkSst {
  frames : list frame;          (* innermost file first *)
  seen : list N;                (* files opened so far, in order *)
  can : bool;                   (* the last operation was a read that delivered a byte *)
  cur : option position;        (* position reported now, None: unspecified *)
  prev : option position        (* position to go back to on pushback *)
}.

Definition sst_init : sst := mkSst [] [] false (Some (0, 0, 0)) None.

(* deliver the next byte: files that are used up are dropped *)
Fixpoint next (fr : list frame) : list frame * list frame * option N :=   (* dropped, left, byte *)
  match fr with
  | [] => ([], [], None)
  | (p, d, []) :: r => let '(dr, l, c) := next r in ((p, d, []) :: dr, l, c)
  | (p, d, c :: q) :: r => ([], (p, d ++ [c], q) :: r, Some c)
  end.

Definition top_position (fr : list frame) : option position :=
  match fr with (p, d, _) :: _ => Some (position_at p d) | [] => None end.

(* take the last byte delivered back *)
Definition putback (fr : list frame) : list frame :=
  match fr with
  | (p, d, q) :: r => (p, removelast d, last d 0 :: q) :: r
  | [] => []
  end.

Section Spec.
  Variable fs : N -> option text.
  (* strict: also the positions are specified. Then no file is opened while a byte is pushed back, and there is
     one outermost file. *)
  Variable strict : bool.

  Definition mem (x : N) (l : list N) : bool := existsb (N.eqb x) l.
  Definition is_open (f : N) (st : sst) : bool := mem f (map (fun x => fst (fst x)) (frames st)).

  (* None: the caller broke the rules (unread without a read before it, opening a file that is open) *)
  Definition sp_step (st : sst) (pushedback : bool) (o : sop) : option (sst * bool * sres) :=
    match o with
    | SpRead =>
      let '(dr, fr, c) := next (frames st) in
      match c with
      | Some b =>
        let pv := match dr with
                  | [] => if pushedback then prev st else cur st
                  | [(_, d, _)] => match d with [] => None | _ => cur st end
                  | _ => None
                  end in
        Some (mkSst fr (seen st) true (top_position fr) pv, false, SpByte (Some b))
      | None =>
        let e := match seen st with
                 | [] => Some (0, 0, 0)
                 | f :: _ => match fs f with Some t => Some (position_at f t) | None => None end
                 end in
        Some (mkSst [] (seen st) true e None, false, SpByte None)
      end
    | SpUnread =>
      if can st then
        match frames st with
        | [] => Some (mkSst [] (seen st) false (cur st) (prev st), pushedback, SpUnit)
        | _ => Some (mkSst (putback (frames st)) (seen st) false (prev st) (prev st), true, SpUnit)
        end
      else None
    | SpPush f once =>
      if once && mem f (seen st) then Some (st, pushedback, SpPushed true) else
      match fs f with
      | None => Some (st, pushedback, SpPushed false)
      | Some content =>
        if is_open f st then None else
        if strict && (pushedback || (match frames st, seen st with [], _ :: _ => true | _, _ => false end)) then None else
        Some (mkSst ((f, [], content) :: frames st) (if mem f (seen st) then seen st else seen st ++ [f]) false
                    (cur st) None, false, SpPushed true)
      end
    end.

  Fixpoint sp_run (st : sst) (pb : bool) (ops : list sop) : option (sst * list (sres * option position)) :=
    match ops with
    | [] => Some (st, [])
    | o :: r =>
      match sp_step st pb o with
      | None => None
      | Some (st1, pb1, x) =>
        match sp_run st1 pb1 r with
        | None => None
        | Some (st2, xs) => Some (st2, (x, cur st1) :: xs)
        end
      end
    end.
End Spec.

(* ---- lines of text (C50) ---- *)
(* the complete lines of a text, each with its newline, and the rest *)
Fixpoint split_lines (acc : text) (s : text) : list text * text :=
  match s with
  | [] => ([], acc)
  | c :: r => if c =? 10 then let '(a, b) := split_lines [] r in ((acc ++ [10]) :: a, b)
              else split_lines (acc ++ [c]) r
  end.
Definition full_lines (s : text) : list text := fst (split_lines [] s).

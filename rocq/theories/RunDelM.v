(** Model of the deletions by index in runningconfig.py: the lists of indexes that
    [list2cli] and its helpers collect, and the [del] statements that follow. The
    functions of the same name in [RunningM.v] say what is left without indexes. *)
From Coq Require Import String Ascii List Bool Arith.
From Verif Require Import Base RunningM.
Import ListNotations.
Open Scope string_scope.
Open Scope list_scope.
Open Scope nat_scope.

(** [del l[i]] for [i >= 0] *)
Fixpoint del_at {A} (i : nat) (l : list A) : res (list A) :=
  match l, i with
  | [], _ => Err IndexError
  | _ :: r, 0 => Ok r
  | x :: r, S j => let! r' := del_at j r in Ok (x :: r')
  end.
(** [for idx in idxs: del l[idx]] *)
Definition del_all {A} (idxs : list nat) (l : list A) : res (list A) := foldM (fun l i => del_at i l) l idxs.

(** [sorted(..., reverse=True)] *)
Fixpoint insert_desc (i : nat) (l : list nat) : list nat :=
  match l with
  | [] => [i]
  | j :: r => if j <? i then i :: l else j :: insert_desc i r
  end.
Fixpoint sort_desc (l : list nat) : list nat :=
  match l with [] => [] | i :: r => insert_desc i (sort_desc r) end.

(** runningconfig.py:568-598. A statement [if idx_positive_list] guards the loop; the
    loop over an empty list does nothing. *)
Definition overwrite_idx (regs : list (list piece)) (st : clis) : res clis :=
  let o := fold_left (fun o ps => fold_left (over_step ps) (enumerate (c_pos st)) o) regs (OState (c_neg st) [] []) in
  let! p := del_all (sort_desc (o_del o)) (c_pos st) in
  Ok (Clis p (o_neg o)).

(** runningconfig.py:768-779; the indexes from [n] on. *)
Fixpoint dup_indexes (n : nat) (seen : list cmd) (l : list cmd) : list nat :=
  match l with
  | [] => []
  | c :: r => if mem (list_eqb String.eqb) c seen then n :: dup_indexes (S n) seen r else dup_indexes (S n) (c :: seen) r
  end.
Definition remove_duplicates_idx (l : list cmd) : res (list cmd) := del_all (rev (dup_indexes 0 [] l)) l.

(** [indexes.add(i)] *)
Definition set_add (s : list nat) (i : nat) : list nat := if mem Nat.eqb i s then s else i :: s.

(** The loops over pairs in 813-824 and 834-845; [cmds] are the indexes with their
    commands, [choose] says which index is added. *)
Fixpoint pair_loop (choose : nat * string -> nat * string -> option nat) (cmds : list (nat * string)) (s : list nat) : list nat :=
  match cmds with
  | [] => s
  | p :: r => pair_loop choose r (fold_left (fun s q => match choose p q with Some i => set_add s i | None => s end) r s)
  end.
Definition pick (shorter longer : nat) (c1 c2 : string) : option nat :=
  if String.eqb c1 c2 || (String.length c1 =? String.length c2) then None
  else if String.length c1 <? String.length c2 then (if starts c1 c2 then Some longer else None)
  else if starts c2 c1 then Some shorter else None.
Fixpoint numbered (f : cmd -> option string) (n : nat) (l : list cmd) : list (nat * string) :=
  match l with
  | [] => []
  | c :: r => match f c with Some t => (n, t) :: numbered f (S n) r | None => numbered f (S n) r end
  end.
(** 809-827: of two commands the one that extends the other is deleted. *)
Definition prune_negative_idx (l : list cmd) : res (list cmd) :=
  del_all (sort_desc (pair_loop (fun p q => pick (fst p) (fst q) (snd p) (snd q)) (numbered one_line 0 l) [])) l.
(** 830-848: of two commands the one that is extended by the other is deleted. *)
Definition prune_positive_idx (l : list cmd) : res (list cmd) :=
  del_all (sort_desc (pair_loop (fun p q => pick (fst q) (fst p) (snd p) (snd q)) (numbered positive_candidate 0 l) [])) l.

(** 568-612 *)
Definition finish_idx (regs : list (list piece)) (st : clis) : res clis :=
  let! st := overwrite_idx regs st in
  let! p := remove_duplicates_idx (c_pos st) in
  let! n := remove_duplicates_idx (c_neg st) in
  let! n := prune_negative_idx n in
  let! p := prune_positive_idx p in
  Ok (Clis p n).

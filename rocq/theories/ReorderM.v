(** Model of the random options of ConfigDelta and of the queue loop that marks one
    level of a delta. *)
From Coq Require Import String Ascii List Bool Arith ZArith Lia.
From Verif Require Import Base XmlM CalcM NetconfM ConfigM.
Import ListNotations.
Open Scope string_scope.
Open Scope list_scope.
Open Scope nat_scope.

(** The number of leading children that are keys, /repo/src/ncdiff/config.py:819-828 *)
Fixpoint num_keys (s : snode) (l : list xml) : res nat :=
  match l with
  | [] => Ok 0
  | c :: r =>
      let! cs := schema_child s (xtag c) in
      if s_is_key (si cs) then let! n := num_keys s r in Ok (S n) else Ok 0
  end.

Definition nth_res {A} (l : list A) (i : nat) : res A :=
  match nth_error l i with Some a => Ok a | None => Err KeyError end.

(** [reorder_children], config.py:812-838. [draw a b] is the result of
    [random.seed(seed); random.sample(range(a, b), b - a)]. *)
Definition reorder_children (draw : nat -> nat -> list nat) (s : snode) (x : xml) : res xml :=
  let l := xkids x in
  let! n := num_keys s l in
  if length l - n =? 2 then
    let! c := nth_res l n in
    Ok (set_kids (firstn n l ++ skipn (S n) l ++ [c]) x)
  else if 2 <? length l - n then
    let! cs := mapM (nth_res l) (draw n (length l)) in
    Ok (set_kids (firstn n l ++ cs) x)
  else Ok x.

(** [reorder], config.py:841-852, with [depth] minus [current_depth] as argument.
    Simplified: the schema node of the children is looked up on the way down
    instead of at the bottom, so an unknown node is noticed earlier. *)
Fixpoint reorder (draw : nat -> nat -> list nat) (d : nat) (s : snode) (x : xml) : res xml :=
  match d with
  | 0 => reorder_children draw s x
  | S d' =>
      let! ks := mapM (fun c => let! cs := schema_child s (xtag c) in reorder draw d' cs c) (xkids x) in
      Ok (set_kids ks x)
  end.

(** [random_depth] and [_random_seed] of a ConfigDelta object. Simplified: the value
    of [random_depth] is a natural number or None (others are refused, config.py:662-670). *)
Record rand_opts := RandOpts { r_depth : option nat; r_seed : option Z }.

(** What can be done to the two options. [gen] is the value of
    [random.randint(1000, 9999)], should it be called. *)
Inductive rand_op :=
| SetDepth (d : option nat)
| SetSeed (v : option Z) (gen : Z).

(** The constructor, config.py:661-671 *)
Definition rand_new (d : option nat) (v : option Z) : rand_opts := RandOpts d v.

(** Assignment to [random_depth] (a plain attribute) and the setter of [random_seed],
    config.py:757-768 *)
Definition rand_step (r : rand_opts) (o : rand_op) : rand_opts :=
  match o with
  | SetDepth d => RandOpts d (r_seed r)
  | SetSeed v gen =>
      match r_depth r with
      | None => RandOpts None None
      | Some d => RandOpts (Some d) (match v with None => Some gen | Some z => Some z end)
      end
  end.
Definition rand_run (r : rand_opts) (ops : list rand_op) : rand_opts := fold_left rand_step ops r.

(** [ConfigDelta.nc], config.py:722-735, with the random options. *)
Definition delta_nc_random (draw : Z -> nat -> nat -> list nat) (s : snode) (d : delta) (r : rand_opts) : res xml :=
  let! e := delta_nc s d in
  match r_depth r, r_seed r with
  | Some n, Some z => reorder (draw z) n s e
  | _, _ => Ok e
  end.

(** ** The loop of [add_attribute_at_depth] *)

(** The node at a position and the tree with this node changed: the code holds
    references to lxml elements and changes them in place. *)
Fixpoint node_at (x : xml) (p : list nat) : option xml :=
  match p with
  | [] => Some x
  | i :: p' => match nth_error (xkids x) i with Some c => node_at c p' | None => None end
  end.
Fixpoint upd_nth {A} (f : A -> A) (i : nat) (l : list A) : list A :=
  match l, i with
  | [], _ => []
  | x :: r, 0 => f x :: r
  | x :: r, S i' => x :: upd_nth f i' r
  end.
Fixpoint upd_at (p : list nat) (f : xml -> xml) (x : xml) : xml :=
  match p with
  | [] => f x
  | i :: p' => set_kids (upd_nth (upd_at p' f) i (xkids x)) x
  end.

(** The while loop of [add_attribute_at_depth], /repo/src/ncdiff/netconf.py:236-252.
    The queue holds positions and depths; [fuel] bounds the number of rounds. *)
Fixpoint mark_loop (fuel : nat) (depth : Z) (name value : string) (x : xml) (queue : list (list nat * Z)) : res xml :=
  match queue with
  | [] => Ok x
  | (p, k) :: q =>
      match fuel with
      | 0 => Err OutOfFuel
      | S f =>
          let x' := if Z.eqb k depth then upd_at p (set_attr name value) x else x in
          match node_at x' p with
          | None => Err KeyError
          | Some n =>
              let kids := map (fun i => (p ++ [i], (k + 1)%Z)) (seq 0 (length (xkids n))) in
              mark_loop f depth name value x' (q ++ kids)
          end
      end
  end.

Fixpoint xsize (x : xml) : nat :=
  let '(Elem _ _ _ k) := x in S (fold_right (fun c n => xsize c + n) 0 k).

(** [add_attribute_at_depth], netconf.py:219-252 *)
Definition add_attribute_at_depth (x : xml) (depth : Z) (name value : string) : res xml :=
  mark_loop (xsize x) depth name value x [([], 0%Z)].

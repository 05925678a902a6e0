(** [IdentityRef.parse_instanceid], /repo/src/ncdiff/ref.py:114-136, a method that nothing
    calls. No proofs in this file. *)
From Coq Require Import String Ascii List Bool Arith.
From Verif Require Import Base TagM RefM.
Import ListNotations.
Open Scope string_scope.
Open Scope list_scope.

(** [char in '/.[]=*'], ref.py:123. *)
Definition is_delim (c : ascii) : bool :=
  existsb (Ascii.eqb c) ["/"; "."; "["; "]"; "="; "*"]%char.

(** [parse_prefixed_id] and [compose_prefixed_id] on a tag, ref.py:126-129 and
    ref.py:133-135. *)
Definition pid_conv (T : table) (nurl : string) (m : nsmap) (to : option nsmap) (tag : list ascii) : res (list ascii) :=
  let! (u, id) := id_parse T m (to_s tag) in
  let! s := id_compose T nurl u id to in Ok (of_s s).

(** The loop, ref.py:122-135: [tag] and [new] are the variables [tag] and
    [new_instanceid]. *)
Fixpoint pid_loop (T : table) (nurl : string) (m : nsmap) (to : option nsmap) (l tag new : list ascii) : res (list ascii) :=
  match l with
  | [] =>
      match tag with
      | [] => Ok new
      | _ => let! c := pid_conv T nurl m to tag in Ok (new ++ c)
      end
  | ch :: r =>
      if is_delim ch then
        match tag with
        | [] => pid_loop T nurl m to r [] (new ++ [ch])
        | _ => let! c := pid_conv T nurl m to tag in pid_loop T nurl m to r [] ((new ++ [ch]) ++ c)
        end
      else pid_loop T nurl m to r (tag ++ [ch]) new
  end.

(** [IdentityRef(device, x).parse_instanceid(x, to_node)], ref.py:114-136. Simplified:
    [self.node] and the argument [node] are one element. *)
Definition parse_instanceid (T : table) (x : rnode) (to : option nsmap) : res string :=
  let! nurl := node_url T x in
  match r_text x with
  | None => Err ConfigError
  | Some t => let! l := pid_loop T nurl (r_nsmap x) to (of_s t) [] [] in Ok (to_s l)
  end.

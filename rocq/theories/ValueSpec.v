(** Specification: the API with values instead of objects. Every Config is a tree of its
    own, every ConfigDelta holds two trees; nothing is shared and nothing changes. *)
From Coq Require Import String Ascii List Bool Arith ZArith Lia.
From Verif Require Import Base XmlM CalcM NetconfM ConfigM FilterM DataSpec DeltaSpec TrimSpec PruneSpec HeapM HeapSpec.
Import ListNotations.
Open Scope string_scope.
Open Scope list_scope.

Inductive pobj := PCfg (x : xml) | PDelta (d : delta).

Definition new_obj (r : res pobj) (st : list pobj) : list pobj * res value :=
  match r with
  | Ok p => (st ++ [p], Ok (VObj (length st)))
  | Err e => (st, Err e)
  end.
Definition new_cfg (r : res xml) := new_obj (let! x := r in Ok (PCfg x)).
Definition answer (r : res value) (st : list pobj) : list pobj * res value := (st, r).

(** One call, by the kinds of its operands *)
Definition pstep (s : snode) (st : list pobj) (c : call) : list pobj * res value :=
  match c with
  | CNew check rd x => new_cfg (config_new check rd s x) st
  | CFrom check rd i =>
      match nth_error st i with
      | Some (PCfg x) => new_cfg (let! e := trim s x in if check then validate rd s e else Ok e) st
      | _ => answer (Err TypeError) st
      end
  | CAdd i j =>
      match nth_error st i, nth_error st j with
      | Some (PCfg x), Some (PCfg y) => new_cfg (config_add s x y) st
      | Some (PCfg x), Some (PDelta d) | Some (PDelta d), Some (PCfg x) => new_cfg (config_add_delta s x d) st
      | _, _ => answer (Err TypeError) st
      end
  | CAddEle i e =>
      match nth_error st i with
      | Some (PCfg x) => new_cfg (config_add s x e) st
      | _ => answer (Err TypeError) st
      end
  | CSub i j =>
      match nth_error st i, nth_error st j with
      | Some (PCfg x), Some (PCfg y) => new_obj (Ok (PDelta (config_sub x y))) st
      | Some (PCfg x), Some (PDelta d) => new_cfg (config_sub_delta s x d) st
      | _, _ => answer (Err TypeError) st
      end
  | CDelta i j o =>
      match nth_error st i, nth_error st j with
      | Some (PCfg x), Some (PCfg y) => new_obj (Ok (PDelta (Delta x y o))) st
      | _, _ => answer (Err TypeError) st
      end
  | CDeltaEle i e o =>
      match nth_error st i with
      | Some (PCfg x) => new_obj (let! y := config_add s x (retrieve e) in Ok (PDelta (Delta x y o))) st
      | _ => answer (Err TypeError) st
      end
  | CNeg i =>
      match nth_error st i with
      | Some (PDelta d) => new_obj (Ok (PDelta (delta_neg d))) st
      | _ => answer (Err TypeError) st
      end
  | CNc i =>
      match nth_error st i with
      | Some (PDelta d) => answer (let! x := delta_nc s d in Ok (VXml x)) st
      | _ => answer (Err TypeError) st
      end
  | CCompare op i j =>
      match nth_error st i, nth_error st j with
      | Some (PCfg x), Some (PCfg y) => answer (let! b := compare op s x y in Ok (VBool b)) st
      | _, _ => answer (Err TypeError) st
      end
  | CBool i =>
      match nth_error st i with
      | Some (PCfg x) => answer (let! b := config_bool s x in Ok (VBool b)) st
      | Some (PDelta d) => answer (let! b := delta_bool s d in Ok (VBool b)) st
      | None => answer (Err TypeError) st
      end
  | CFilter i xpath =>
      match nth_error st i with
      | Some (PCfg x) => new_cfg (config_filter s xpath x) st
      | _ => answer (Err TypeError) st
      end
  | CExtract rd reply => new_cfg (extract_config rd s reply) st
  end.

(** The answers to a sequence of calls, for any way to execute one call *)
Fixpoint answers {S} (f : S -> call -> S * res value) (st : S) (l : list call) : list (res value) :=
  match l with
  | [] => []
  | c :: r => snd (f st c) :: answers f (fst (f st c)) r
  end.

(** Whenever a Config is built from a Config there is nothing to remove from it. *)
Fixpoint Gentle (s : snode) (st : list pobj) (l : list call) : Prop :=
  match l with
  | [] => True
  | c :: r => (forall check rd i x, c = CFrom check rd i -> nth_error st i = Some (PCfg x) -> Settled rd s x) /\
              Gentle s (fst (pstep s st c)) r
  end.

(** Model of the sharing of trees between Config and ConfigDelta objects,
    /repo/src/ncdiff/config.py. A tree ([Config.ele]) lives at an address; objects hold
    addresses. *)
From Coq Require Import String Ascii List Bool Arith ZArith Lia.
From Verif Require Import Base XmlM CalcM NetconfM ConfigM FilterM.
Import ListNotations.
Open Scope string_scope.
Open Scope list_scope.

(** ** Changes made in place *)

(** What is removed during the loop of [_trim_defaults] and not after it,
    config.py:382-407. *)
Definition trim_now (cs : snode) (c : xml) : bool :=
  match sty cs with TLeafList => false | _ => trim_drops cs [] c end.

(** [_trim_defaults] as a change of the tree, config.py:351-436: the tree afterwards, and
    the exception if one was raised. Leaf-lists equal to their defaults are removed at the
    end, hence not when an exception is raised. *)
Fixpoint trim_io (s : snode) (x : xml) : xml * option exn :=
  let '(Elem t tx a ks) := x in
  let r :=
    (fix go (l : list xml) : list xml * option exn :=
       match l with
       | [] => ([], None)
       | c :: r =>
           match schema_child s (xtag c) with
           | Err e => (c :: r, Some e)
           | Ok cs =>
               match trim_io cs c with
               | (c', Some e) => (c' :: r, Some e)
               | (c', None) => let '(r', e) := go r in (if trim_now cs c' then (r', e) else (c' :: r', e))
               end
           end
       end) ks in
  match snd r with
  | Some e => (Elem t tx a (fst r), Some e)
  | None =>
      (Elem t tx a (filter (fun c => match schema_child s (xtag c) with
                                     | Ok cs => match sty cs with TLeafList => negb (trim_drops cs ks c) | _ => true end
                                     | Err _ => true
                                     end) (fst r)), None)
  end.

(** [_validate_node] as a change of the tree, config.py:438-514. *)
Fixpoint validate_io (rd : bool) (s : snode) (x : xml) : xml * option exn :=
  let '(Elem t tx a ks) := x in
  if negb (validate_own s x) then (x, Some ConfigError) else
  let r :=
    (fix go (l : list xml) : list xml * option exn :=
       match l with
       | [] => ([], None)
       | c :: r =>
           match schema_child s (xtag c) with
           | Err e => (c :: r, Some e)
           | Ok cs =>
               match (match xkids c with [] => (c, None) | _ => validate_io rd cs c end) with
               | (c', Some e) => (c' :: r, Some e)
               | (c', None) => let '(r', e) := go r in (if validate_drops rd cs c' then (r', e) else (c' :: r', e))
               end
           end
       end) ks in
  (Elem t tx a (fst r), snd r).

(** The end of [Config.__init__], config.py:86-88 *)
Definition settle_io (check rd : bool) (s : snode) (x : xml) : xml * option exn :=
  match trim_io s x with
  | (y, Some e) => (y, Some e)
  | (y, None) => if check then validate_io rd s y else (y, None)
  end.

(** ** Objects *)

(** A Config with the address of its tree; a ConfigDelta with the addresses of the trees
    of its two configs. *)
Inductive obj := OCfg (a : nat) | ODelta (src dst : nat) (o : opts).

Record heap := Heap { h_trees : list xml; h_objs : list obj }.
Definition empty_heap := Heap [] [].

Inductive comparison_op := CmpLe | CmpLt | CmpGe | CmpGt | CmpEq | CmpNe.

(** API calls; objects are named by their number. [CNew]: Config from an element;
    [CFrom]: Config from a Config; [CAdd]: Config + Config, Config + ConfigDelta or
    ConfigDelta + Config; [CAddEle]: Config + element; [CSub]: Config - Config or Config -
    ConfigDelta; [CDelta], [CDeltaEle]: ConfigDelta with a destination or with a delta
    element; [CNc]: ConfigDelta.nc; [CExtract]: extract_config. *)
Inductive call :=
| CNew (check rd : bool) (x : xml)
| CFrom (check rd : bool) (i : nat)
| CAdd (i j : nat)
| CAddEle (i : nat) (x : xml)
| CSub (i j : nat)
| CDelta (i j : nat) (o : opts)
| CDeltaEle (i : nat) (x : xml) (o : opts)
| CNeg (i : nat)
| CNc (i : nat)
| CCompare (op : comparison_op) (i j : nat)
| CBool (i : nat)
| CFilter (i : nat) (xpath : xml -> xpath_result)
| CExtract (rd : bool) (reply : xml).

(** What a call returns: a new object (by number), an element or a boolean. *)
Inductive value := VObj (i : nat) | VXml (x : xml) | VBool (b : bool).

Definition tree (h : heap) (a : nat) : res xml :=
  match nth_error (h_trees h) a with Some x => Ok x | None => Err TypeError end.
Definition config_at (h : heap) (i : nat) : res nat :=
  match nth_error (h_objs h) i with Some (OCfg a) => Ok a | _ => Err TypeError end.
Definition delta_at (h : heap) (i : nat) : res (nat * nat * opts) :=
  match nth_error (h_objs h) i with Some (ODelta a b o) => Ok (a, b, o) | _ => Err TypeError end.
Definition config_tree (h : heap) (i : nat) : res xml := let! a := config_at h i in tree h a.

(** The delta that a ConfigDelta object stands for now: [nc] reads the trees of the
    configs each time, config.py:722-735. *)
Definition delta_now (h : heap) (i : nat) : res delta :=
  let! d := delta_at h i in
  let '(a, b, o) := d in
  let! x := tree h a in let! y := tree h b in Ok (Delta x y o).

Definition push (o : obj) (h : heap) : heap * res value :=
  (Heap (h_trees h) (h_objs h ++ [o]), Ok (VObj (length (h_objs h)))).
(** A new Config with a tree of its own, or the exception *)
Definition push_tree (r : res xml) (h : heap) : heap * res value :=
  match r with
  | Err e => (h, Err e)
  | Ok x => push (OCfg (length (h_trees h))) (Heap (h_trees h ++ [x]) (h_objs h))
  end.

Fixpoint set_nth {A} (n : nat) (x : A) (l : list A) : list A :=
  match l, n with
  | [], _ => []
  | _ :: r, 0 => x :: r
  | y :: r, S m => y :: set_nth m x r
  end.

Definition compare (op : comparison_op) (s : snode) (x y : xml) : res bool :=
  match op with
  | CmpLe => cmp_le s x y | CmpLt => cmp_lt s x y | CmpGe => cmp_ge s x y
  | CmpGt => cmp_gt s x y | CmpEq => cmp_eq s x y | CmpNe => cmp_ne s x y
  end.

(** One call. [NetconfCalculator] and [filter] work on deep copies (netconf.py:197-205,
    config.py:338), [NetconfParser] copies its input (netconf.py:81-113), comparisons only
    read; only the construction of a Config from a Config works on a tree that exists
    already (config.py:79-88). Simplified: configs of one device. *)
Definition step (s : snode) (h : heap) (c : call) : heap * res value :=
  match c with
  | CNew check rd x => push_tree (config_new check rd s x) h
  | CFrom check rd i =>
      match config_at h i with
      | Err e => (h, Err e)
      | Ok a =>
          match tree h a with
          | Err e => (h, Err e)
          | Ok x =>
              let '(y, e) := settle_io check rd s x in
              let h' := Heap (set_nth a y (h_trees h)) (h_objs h) in
              match e with Some e => (h', Err e) | None => push (OCfg a) h' end
          end
      end
  | CAdd i j =>
      match config_at h i, config_at h j with
      | Ok a, Ok b => push_tree (let! x := tree h a in let! y := tree h b in config_add s x y) h
      | Ok a, Err _ => push_tree (let! x := tree h a in let! d := delta_now h j in config_add_delta s x d) h
      | Err _, Ok b => push_tree (let! x := tree h b in let! d := delta_now h i in config_add_delta s x d) h
      | Err e, Err _ => (h, Err e)
      end
  | CAddEle i d => push_tree (let! x := config_tree h i in config_add s x d) h
  | CSub i j =>
      match config_at h i, config_at h j with
      | Ok a, Ok b => push (ODelta b a default_opts) h
      | Ok a, Err _ => push_tree (let! x := tree h a in let! d := delta_now h j in config_sub_delta s x d) h
      | Err e, _ => (h, Err e)
      end
  | CDelta i j o =>
      match config_at h i, config_at h j with
      | Ok a, Ok b => push (ODelta a b o) h
      | Err e, _ => (h, Err e)
      | _, Err e => (h, Err e)
      end
  | CDeltaEle i d o =>
      match config_at h i, (let! x := config_tree h i in config_add s x (retrieve d)) with
      | Ok a, Ok y => push (ODelta a (length (h_trees h)) o) (Heap (h_trees h ++ [y]) (h_objs h))
      | Err e, _ => (h, Err e)
      | _, Err e => (h, Err e)
      end
  | CNeg i =>
      match delta_at h i with
      | Ok (a, b, _) => push (ODelta b a default_opts) h
      | Err e => (h, Err e)
      end
  | CNc i => (h, let! d := delta_now h i in let! x := delta_nc s d in Ok (VXml x))
  | CCompare op i j =>
      (h, let! x := config_tree h i in let! y := config_tree h j in let! b := compare op s x y in Ok (VBool b))
  | CBool i =>
      (h, match config_at h i with
          | Ok a => let! x := tree h a in let! b := config_bool s x in Ok (VBool b)
          | Err _ => let! d := delta_now h i in let! b := delta_bool s d in Ok (VBool b)
          end)
  | CFilter i xpath => push_tree (let! x := config_tree h i in config_filter s xpath x) h
  | CExtract rd reply => push_tree (extract_config rd s reply) h
  end.

Fixpoint run (s : snode) (h : heap) (l : list call) : heap :=
  match l with
  | [] => h
  | c :: r => run s (fst (step s h c)) r
  end.

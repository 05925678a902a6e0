(** The state of a ModelDevice: loaded models, the cache of schema lookups, the
    compiler and the namespace table (/repo/src/ncdiff/manager.py). No proofs in
    this file. *)
From Coq Require Import String Ascii List Bool Arith.
From Verif Require Import Base XmlM TagM.
Import ListNotations.
Open Scope string_scope.
Open Scope list_scope.

(** A compiled model: its name and its tree, a [TRoot] node with the root nodes as
    children (/repo/src/ncdiff/model.py:91-115). *)
Record model := Model { m_name : string; m_tree : snode }.

(** [Model.roots], model.py:113-115: the tags of the children of the tree. *)
Definition m_roots (m : model) : list string := map stag (skids (m_tree m)).

(** The attributes of a ModelDevice, manager.py:104-108. [d_nodes] is the dict [nodes].
    Simplified: its keys are the lists of tags instead of the tags joined by a
    space, which is the same if no tag has a space in it. [d_compiler] is the table
    that the dependencies of the current compiler give, [None] before the first
    scan. *)
Record device := Device {
  d_models : list (string * model);
  d_nodes : list (list string * snode);
  d_compiler : option table;
  d_namespaces : option table }.

Definition new_device : device := Device [] [] None None.

(** [namespaces], manager.py:115-129. *)
Definition namespaces (d : device) : res table * device :=
  match d_compiler d with
  | None => (Err ValueError, d)
  | Some T =>
      match d_namespaces d with
      | Some N => (Ok N, d)
      | None => (Ok T, Device (d_models d) (d_nodes d) (d_compiler d) (Some T))
      end
  end.

(** [scan_models], manager.py:270-274, after the download. *)
Definition scan_models (T : table) (d : device) : device :=
  Device (d_models d) (d_nodes d) (Some T) (d_namespaces d).

(** [roots], manager.py:218-223: a later model overwrites an earlier one. *)
Definition roots (d : device) : list (string * string) :=
  fold_left (fun acc m => fold_left (fun a r => dset String.eqb r (m_name m) a) (m_roots m) acc)
            (map snd (d_models d)) [].

Definition path_eqb : list string -> list string -> bool := list_eqb String.eqb.

(** [self.roots[k.split(' ')[0]]], manager.py:330. *)
Definition root_owner (d : device) (k : list string) : res string :=
  match k with
  | [] => Err KeyError
  | r :: _ => match assoc String.eqb r (roots d) with Some n => Ok n | None => Err KeyError end
  end.

(** The dict comprehension of manager.py:329-330: an unknown root raises KeyError and
    leaves [nodes] as it was. *)
Fixpoint purge (d : device) (name : string) (l : list (list string * snode))
  : res (list (list string * snode)) :=
  match l with
  | [] => Ok []
  | (k, v) :: r =>
      let! o := root_owner d k in
      let! r' := purge d name r in
      Ok (if String.eqb o name then r' else (k, v) :: r')
  end.

(** [load_model] once the model is read or compiled, manager.py:328-336. *)
Definition load_model (m : model) (d : device) : res unit * device :=
  match assoc String.eqb (m_name m) (d_models d) with
  | Some _ =>
      match purge d (m_name m) (d_nodes d) with
      | Err e => (Err e, d)
      | Ok ns => (Ok tt, Device (dset String.eqb (m_name m) m (d_models d)) ns (d_compiler d) (d_namespaces d))
      end
  | None => (Ok tt, Device (dset String.eqb (m_name m) m (d_models d)) (d_nodes d) (d_compiler d) (d_namespaces d))
  end.

(** [get_child], manager.py:576-592: a data node below choices and cases. *)
Definition get_child (parent : snode) (tag : string) : res (option snode) :=
  match filter (fun c => String.eqb (stag (ce_node c)) tag) (flat parent) with
  | [] => Ok None
  | [c] => Ok (Some (ce_node c))
  | _ => Err ModelError
  end.

(** [Composer.model_name], composer.py:103-122: the error path reads [namespaces]. *)
Definition model_name (root : string) (d : device) : res string * device :=
  match assoc String.eqb root (roots d) with
  | Some n => (Ok n, d)
  | None =>
      match re_brace root with
      | Some _ => let '(r, d') := namespaces d in
                  (match r with Ok _ => Err ModelMissing | Err e => Err e end, d')
      | None => (Err ModelMissing, d)
      end
  end.

Definition remember (k : list string) (s : snode) (d : device) : device :=
  Device (d_models d) (dset path_eqb k s (d_nodes d)) (d_compiler d) (d_namespaces d).

(** [get_schema_node], manager.py:530-630, for a config node with the given path. [rp] is
    the path from the node up to the root, so that the recursion to the parent is
    structural; the key in the cache is [rev rp]. The empty path stands for the
    config element itself, for which Python raises IndexError. *)
Fixpoint lookup_up (rp : list string) (d : device) : res snode * device :=
  match rp with
  | [] => (Err IndexError, d)
  | tag :: up =>
      match assoc path_eqb (rev rp) (d_nodes d) with
      | Some s => (Ok s, d)
      | None =>
          match up with
          | [] =>
              match model_name tag d with
              | (Err e, d') => (Err e, d')
              | (Ok n, d') =>
                  match assoc String.eqb n (d_models d') with
                  | None => (Err KeyError, d')
                  | Some m =>
                      match get_child (m_tree m) tag with
                      | Err e => (Err e, d')
                      | Ok None => (Err ConfigError, d')
                      | Ok (Some s) => (Ok s, remember (rev rp) s d')
                      end
                  end
              end
          | _ =>
              match lookup_up up d with
              | (Err e, d') => (Err e, d')
              | (Ok p, d') =>
                  match get_child p tag with
                  | Err e => (Err e, d')
                  | Ok None => (Err ConfigError, d')
                  | Ok (Some s) => (Ok s, remember (rev rp) s d')
                  end
              end
          end
      end
  end.
Definition get_schema_node (path : list string) (d : device) : res snode * device :=
  lookup_up (rev path) d.

(** A history of calls. *)
Inductive dcall := DScan (T : table) | DLoad (m : model) | DLookup (path : list string) | DNamespaces.

Definition dstep (c : dcall) (d : device) : device :=
  match c with
  | DScan T => scan_models T d
  | DLoad m => snd (load_model m d)
  | DLookup p => snd (get_schema_node p d)
  | DNamespaces => snd (namespaces d)
  end.
Definition drun (l : list dcall) : device := fold_left (fun d c => dstep c d) l new_device.

(** Configs of two devices: /repo/src/ncdiff/config.py:186-212, 711-751, 853-961. A device is what
    these parts read of it. No proofs in this file. *)
From Coq Require Import String Ascii List Bool Arith.
From Verif Require Import Base XmlM TagM MDiffM.
Import ListNotations.
Open Scope string_scope.
Open Scope list_scope.

(** A ModelDevice: [v_id] is the identity of the object; [v_models] the dict [models] of
    name and tree, /repo/src/ncdiff/manager.py:104, 335; [v_loadable] the answer of [models_loadable], manager.py:132-212;
    [v_ns] the table of the compiler, None before the first scan, manager.py:115-129. *)
Record vdev := VDev { v_id : nat; v_models : list (string * xml); v_loadable : list string; v_ns : option table }.

(** [namespaces], manager.py:115-129 *)
Definition v_namespaces (d : vdev) : res table := match v_ns d with Some T => Ok T | None => Err ValueError end.
(** [roots], manager.py:218-223, with [Model.roots], /repo/src/ncdiff/model.py:109-111. A model is
    stored under its name, which is the tag of its tree. *)
Definition v_roots (d : vdev) : list (string * string) :=
  fold_left (fun acc '(n, t) => fold_left (fun a c => dset String.eqb (xtag c) n a) (xkids t) acc) (v_models d) [].

(** A Config: its device and the tags of the children of [ele]. *)
Record vcfg := VCfg { c_dev : vdev; c_tops : list string }.

(** [Config.roots], config.py:191-212 *)
Definition cfg_roots (c : vcfg) : res (list (string * string)) :=
  foldM (fun acc t =>
    match assoc String.eqb t (v_roots (c_dev c)) with
    | Some n => Ok (dset String.eqb t n acc)
    | None =>
        match re_brace t with
        | None => Err ConfigError
        | Some (u, _) =>
            let! T := v_namespaces (c_dev c) in
            if existsb (fun e => String.eqb (e_url e) u) T then Err ModelMissing else Err ConfigError
        end
    end) [] (c_tops c).

(** [sorted(list(set(l)))] *)
Fixpoint put (s : string) (l : list string) : list string :=
  match l with
  | [] => [s]
  | x :: r => if String.eqb s x then l else if String.leb s x then s :: l else x :: put s r
  end.
Definition sorted_set (l : list string) : list string := fold_left (fun a s => put s a) l [].

(** [Config.models], config.py:187-188 *)
Definition cfg_models (c : vcfg) : res (list string) :=
  let! r := cfg_roots c in Ok (sorted_set (map snd r)).

(** What is compared: a Config, or a ConfigDelta, of which [device] is that of the source,
    config.py:718-719, and [models] those of both ends, config.py:742-744. *)
Inductive operand := OCfg (c : vcfg) | ODelta (src dst : vcfg).
Definition o_dev (o : operand) : vdev := match o with OCfg c => c_dev c | ODelta s _ => c_dev s end.
Definition o_models (o : operand) : res (list string) :=
  match o with
  | OCfg c => cfg_models c
  | ODelta s d => let! a := cfg_models s in let! b := cfg_models d in Ok (sorted_set (a ++ b))
  end.

(** [ConfigCompatibility.models], config.py:893-894 *)
Definition both_models (a b : operand) : res (list string) :=
  let! x := o_models a in let! y := o_models b in Ok (sorted_set (x ++ y)).

(** [check_models], config.py:899-907 and 926-932 *)
Definition check_models (have : vdev -> list string) (a b : operand) (l : list string) : res unit :=
  foldM (fun _ d => if forallb (fun m => mem String.eqb m (have d)) l then Ok tt else Err ModelMissing) tt [o_dev a; o_dev b].
Definition v_loaded (d : vdev) : list string := map fst (v_models d).

(** [ModelDiff(self.config1.device.models[model], self.config2.device.models[model])],
    config.py:911-912. Simplified: two devices do not share a Model object. *)
Definition model_of (d : vdev) (m : string) : res xml :=
  match assoc String.eqb m (v_models d) with Some t => Ok t | None => Err KeyError end.
(** [models_compatible], config.py:897-919 *)
Definition models_compatible (a b : operand) : res bool :=
  let! l := both_models a b in
  let! _ := check_models v_loaded a b l in
  let! _ := foldM (fun _ m =>
    let! t1 := model_of (o_dev a) m in
    let! t2 := model_of (o_dev b) m in
    let! d := model_diff (Nat.eqb (v_id (o_dev a)) (v_id (o_dev b))) t1 t2 in
    if nonempty d then Err ModelIncompatible else Ok tt) tt l in
  Ok true.

(** [[i[k] for i in namespaces if i[0] == model][0]], config.py:936-939, 947-950 *)
Definition ns_field (f : entry -> string) (d : vdev) (m : string) : res string :=
  let! T := v_namespaces d in
  match filter (fun e => String.eqb (e_name e) m) T with
  | e :: _ => Ok (f e)
  | [] => Err IndexError
  end.
(** [namespaces_compatible], config.py:922-957 *)
Definition namespaces_compatible (a b : operand) : res bool :=
  if Nat.eqb (v_id (o_dev a)) (v_id (o_dev b)) then Ok true
  else
    let! l := both_models a b in
    let! _ := check_models v_loadable a b l in
    let! _ := foldM (fun _ m =>
      let! p1 := ns_field e_prefix (o_dev a) m in
      let! p2 := ns_field e_prefix (o_dev b) m in
      if negb (String.eqb p1 p2) then Err ModelIncompatible
      else
        let! u1 := ns_field e_url (o_dev a) m in
        let! u2 := ns_field e_url (o_dev b) m in
        if negb (String.eqb u1 u2) then Err ModelIncompatible else Ok tt) tt l in
    Ok true.

(** [is_compatible], config.py:960-961 *)
Definition is_compatible (a b : operand) : res bool :=
  let! x := namespaces_compatible a b in
  if x then models_compatible a b else Ok false.

(** The check of [ConfigDelta.__init__], config.py:714-715, and of [Config.__add__],
    config.py:110-123: what follows it runs only after the check. *)
Definition new_delta (src dst : vcfg) : res operand :=
  let! _ := is_compatible (OCfg src) (OCfg dst) in Ok (ODelta src dst).
Definition add_config {A} (a : vcfg) (b : operand) (k : res A) : res (option A) :=
  let! x := is_compatible (OCfg a) b in
  if x then let! r := k in Ok (Some r) else Ok None.

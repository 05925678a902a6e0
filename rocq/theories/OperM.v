(** The operators of Config and ConfigDelta as Python dispatches them, and the constructor of
    ConfigDelta with unchecked arguments: /repo/src/ncdiff/config.py:28-30, 110-173, 650-735, 774-810.
    No proofs in this file. *)
From Coq Require Import String Ascii List Bool Arith ZArith.
From Verif Require Import Base XmlM CalcM NetconfM ConfigM TagM MDiffM CompatM CompatSpec.
Import ListNotations.
Open Scope string_scope.
Open Scope list_scope.

(** A Config: its device and [ele]. Simplified: [parser] and [remove_deprecated] are left
    out, nothing here reads them. *)
Record cfg := Cfg { g_dev : vdev; g_ele : xml }.
(** The schema that the calculators see (CompatSpec.v), and the config as CompatM.v has it *)
Definition g_schema (c : cfg) : snode := v_schema (g_dev c).
Definition g_tops (c : cfg) : vcfg := VCfg (g_dev c) (map xtag (xkids (g_ele c))).

(** The options of a ConfigDelta as they are stored, config.py:650-690. Simplified:
    [replace_depth] is an integer; [replace_xpath] is in MarkM.v, the random options are
    in ReorderM.v. *)
Record sopts := SOpts { so_create : string; so_replace : string; so_delete : string; so_type : string; so_depth : Z }.
Definition default_sopts := SOpts "merge" "merge" "delete" "minimum" 0.

(** A ConfigDelta *)
Record dlt := Dlt { l_src : cfg; l_dst : cfg; l_opts : sopts }.

(** Operands. [POther] is any object without reflected operators for these classes, as are
    None, numbers, strings and lists. *)
Inductive val := PCfg (c : cfg) | PDel (d : dlt) | PEle (x : xml) | PNone | PBool (b : bool) | POther.

(** The checks of the three preferences, config.py:676-690 and once more in
    /repo/src/ncdiff/netconf.py:179-193 *)
Definition create_of (v : string) : res pcreate :=
  if String.eqb v "merge" then Ok PCMerge else if String.eqb v "create" then Ok PCCreate
  else if String.eqb v "replace" then Ok PCReplace else Err ValueError.
Definition replace_of (v : string) : res preplace :=
  if String.eqb v "merge" then Ok PRMerge else if String.eqb v "replace" then Ok PRReplace else Err ValueError.
Definition delete_of (v : string) : res pdelete :=
  if String.eqb v "delete" then Ok PDDelete else if String.eqb v "remove" then Ok PDRemove else Err ValueError.
(** [diff_type] is only ever compared with 'replace' and 'minimum-replace', netconf.py:206,
    211, 215, 1081, 1195, 1221. *)
Definition type_of (v : string) : dtype :=
  if String.eqb v "replace" then DReplace else if String.eqb v "minimum-replace" then DMinimumReplace else DMinimum.
(** [NetconfCalculator.__init__], netconf.py:165-193 *)
Definition read_opts (o : sopts) : res opts :=
  let! c := create_of (so_create o) in
  let! r := replace_of (so_replace o) in
  let! d := delete_of (so_delete o) in
  Ok (Opts c r d (type_of (so_type o)) (so_depth o)).

(** [ConfigDelta.nc], config.py:722-735; [device] is that of the source, config.py:717-719. *)
Definition l_nc (d : dlt) : res xml :=
  let! o := read_opts (l_opts d) in
  nc_sub o (g_schema (l_src d)) (g_ele (l_dst d)) (g_ele (l_src d)).

(** ** Methods; None is NotImplemented *)

(** [Config(self.device, NetconfCalculator(self.device, self.ele, x).add, False)] *)
Definition plus (c : cfg) (x : xml) : res val :=
  let! r := config_add (g_schema c) (g_ele c) x in Ok (PCfg (Cfg (g_dev c) r)).

(** [Config.__add__], config.py:110-130 *)
Definition cfg_add (c : cfg) (y : val) : res (option val) :=
  match y with
  | PCfg c' =>
      let! ok := is_compatible (OCfg (g_tops c)) (OCfg (g_tops c')) in
      if ok then let! r := plus c (g_ele c') in Ok (Some r) else Ok (Some PNone)
  | PDel d =>
      let! ok := is_compatible (OCfg (g_tops c)) (ODelta (g_tops (l_src d)) (g_tops (l_dst d))) in
      if ok then let! e := l_nc d in let! r := plus c e in Ok (Some r) else Ok (Some PNone)
  | PEle x => let! r := plus c x in Ok (Some r)
  | _ => Ok None
  end.

(** [ConfigDelta.__add__], config.py:787-789: without a return for what is no Config *)
Definition del_add (d : dlt) (y : val) : res (option val) :=
  match y with
  | PCfg c => let! e := l_nc d in cfg_add c (PEle e)
  | _ => Ok (Some PNone)
  end.

(** The delta argument of the constructor: None, a string (with the outcome of
    [etree.XML]), or another object *)
Inductive darg := DNone | DStr (x : res xml) | DVal (v : val).
(** The argument [random_depth] *)
Inductive rarg := RNone | RInt (z : Z) | ROther.

(** [x + y]. Neither class has [__radd__]. *)
Definition py_add (x y : val) : res val :=
  let! r := match x with PCfg c => cfg_add c y | PDel d => del_add d y | _ => Ok None end in
  match r with Some v => Ok v | None => Err TypeError end.

(** [ConfigDelta.__init__], config.py:650-715, check by check. Only what it does with
    [random_depth] is left out of the result. *)
Definition delta_new (src dst : val) (da : darg) (o : sopts) (rd : rarg) : res dlt :=
  let! _ := match rd with
            | RNone => Ok tt
            | RInt z => if (0 <=? z)%Z then Ok tt else Err ValueError
            | ROther => Err ValueError
            end in
  match src with
  | PCfg a =>
      let! _ := create_of (so_create o) in
      let! _ := replace_of (so_replace o) in
      let! _ := delete_of (so_delete o) in
      let! de := match da with
                 | DNone => Ok None
                 | DStr x => let! e := x in Ok (Some (retrieve e))
                 | DVal (PEle e) => Ok (Some (retrieve e))
                 | DVal _ => Err TypeError
                 end in
      let! db := match dst with
                 | PCfg b => Ok (Some b)
                 | PNone => Ok None
                 | _ => Err TypeError
                 end in
      match de with
      | Some e =>
          let! v := py_add (PCfg a) (PEle e) in
          match v with PCfg b => Ok (Dlt a b o) | _ => Err TypeError end
      | None =>
          let b := match db with Some b => b | None => a end in
          let! _ := is_compatible (OCfg (g_tops a)) (OCfg (g_tops b)) in
          Ok (Dlt a b o)
      end
  | _ => Err TypeError
  end.
Definition new_dlt (src dst : cfg) : res dlt := delta_new (PCfg src) (PCfg dst) DNone default_sopts RNone.

(** [ConfigDelta.__neg__] and [__pos__], config.py:774-779. A Config has neither. *)
Definition py_neg (x : val) : res val :=
  match x with PDel d => let! e := new_dlt (l_dst d) (l_src d) in Ok (PDel e) | _ => Err TypeError end.
Definition py_pos (x : val) : res val := match x with PDel d => Ok (PDel d) | _ => Err TypeError end.

(** [Config.__sub__], config.py:132-138 *)
Definition cfg_sub (c : cfg) (y : val) : res (option val) :=
  match y with
  | PCfg c' => let! d := new_dlt c' c in Ok (Some (PDel d))
  | PDel d => let! n := py_neg (PDel d) in cfg_add c n
  | _ => Ok None
  end.
(** [x - y]; [ConfigDelta.__sub__], config.py:791-792, never does anything. Neither class
    has [__rsub__]. *)
Definition py_sub (x y : val) : res val :=
  let! r := match x with PCfg c => cfg_sub c y | _ => Ok None end in
  match r with Some v => Ok v | None => Err TypeError end.

(** ** Comparisons, config.py:28-30, 140-173, 794-810 *)
Inductive cop := CLe | CLt | CGe | CGt | CEq | CNe.
Definition swap_op (o : cop) : cop := match o with CLe => CGe | CLt => CGt | CGe => CLe | CGt => CLt | CEq => CEq | CNe => CNe end.
Definition calc_of (o : cop) : snode -> xml -> xml -> res bool :=
  match o with CLe => cmp_le | CLt => cmp_lt | CGe => cmp_ge | CGt => cmp_gt | CEq => cmp_eq | CNe => cmp_ne end.
(** The method of the class of [x]; None if it is NotImplemented *)
Definition cmp_method (o : cop) (x y : val) : res (option bool) :=
  match x, y with
  | PCfg c, PCfg c' => let! b := calc_of o (g_schema c) (g_ele c) (g_ele c') in Ok (Some b)
  | PCfg _, _ => Err TypeError
  | PDel _, _ => Err TypeError
  | _, _ => Ok None
  end.
(** [x <= y] and so on: the method of the left operand, then the reflected one of the right.
    If neither is there, [==] and [!=] compare identities and the others raise. Simplified:
    two operands that are neither Config nor ConfigDelta count as two objects. *)
Definition py_cmp (o : cop) (x y : val) : res bool :=
  let! r := cmp_method o x y in
  match r with
  | Some b => Ok b
  | None => let! r' := cmp_method (swap_op o) y x in
            match r', o with
            | Some b, _ => Ok b
            | None, CEq => Ok false
            | None, CNe => Ok true
            | None, _ => Err TypeError
            end
  end.

(** [bool(x)] of a ConfigDelta, config.py:781-785 *)
Definition l_bool (d : dlt) : res bool := rnot (py_cmp CEq (PCfg (l_src d)) (PCfg (l_dst d))).

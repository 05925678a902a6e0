(** The comparison of /repo/src/ncdiff/calculator.py as it is written: with the cache
    that every calculator keeps of parsed texts, the cache of types inside
    [_pair_children], and the search for peers in [_get_peers]. CalcM.v has the
    same functions without caches. No proofs in this file. *)
From Coq Require Import String Ascii List Bool Arith.
From Verif Require Import Base XmlM CalcM.
Import ListNotations.
Open Scope string_scope.
Open Scope list_scope.

(** ** [functools.lru_cache] *)

(** The entries of a cache, most recently used first. *)
Definition lru (K V : Type) := list (K * V).

Definition drop {K V} (eqb : K -> K -> bool) (k : K) (c : lru K V) : lru K V :=
  filter (fun e => negb (eqb k (fst e))) c.

(** One call of a function wrapped in [lru_cache(maxsize=max)], calculator.py:377.
    [compute] is what the wrapped function does. A hit moves the entry to the front, a
    miss computes and drops the entry used longest ago if there are too many, and an
    exception is passed on and not kept (CPython's [_lru_cache_wrapper]). *)
Definition lru_call {K V} (eqb : K -> K -> bool) (max : nat) (k : K) (compute : res V) (c : lru K V)
  : res V * lru K V :=
  match assoc eqb k c with
  | Some v => (Ok v, (k, v) :: drop eqb k c)
  | None => match compute with
            | Ok v => (Ok v, firstn max ((k, v) :: c))
            | Err e => (Err e, c)
            end
  end.

(** calculator.py:377 *)
Definition maxsize := 128.

(** ** Elements with identity *)

(** An lxml element of one of the two trees of a calculator, calculator.py:41-49: which
    tree, the indices of the children on the way to it, the tags on the way without
    the one of the root, and its content. lxml compares elements by identity: here by
    tree and indices. *)
Record node := Node { n_first : bool; n_path : list nat; n_tags : list string; n_xml : xml }.

Definition node_eqb (a b : node) : bool :=
  Bool.eqb (n_first a) (n_first b) && list_eqb Nat.eqb (n_path a) (n_path b).

Fixpoint kids_from (n : node) (i : nat) (l : list xml) : list node :=
  match l with
  | [] => []
  | c :: r => Node (n_first n) (n_path n ++ [i]) (n_tags n ++ [xtag c]) c :: kids_from n (S i) r
  end.
(** [node.getchildren()] *)
Definition kids (n : node) : list node := kids_from n 0 (xkids (n_xml n)).
(** [node.iterchildren(tag=t)], [node.findall(t)] *)
Definition kids_of (t : string) (n : node) : list node :=
  filter (fun c => String.eqb (xtag (n_xml c)) t) (kids n).

Fixpoint until {A} (p : A -> bool) (l : list A) : list A :=
  match l with [] => [] | x :: r => if p x then [] else x :: until p r end.
(** [list(node.itersiblings(tag=t, preceding=True))] for a child of [parent]: nearest
    first, calculator.py:557-558 and 571-573. *)
Definition elders (t : string) (n parent : node) : list node :=
  rev (filter (fun c => String.eqb (xtag (n_xml c)) t) (until (node_eqb n) (kids parent))).

(** ** Schema lookup *)

(** A schema node, with the tags that lead to it: lxml compares these by identity too. *)
Definition schema := (list string * snode)%type.

(** [device.get_schema_node(node)]: see XmlM.v. The root of a config has none. *)
Definition get_schema_node (dev : snode) (n : node) : res schema :=
  match n_tags n with
  | [] => Err ModelMissing
  | ts => let! s := foldM schema_child dev ts in Ok (ts, s)
  end.

(** ** Computations with the cache of one calculator *)

(** The arguments of a cached call: [_parse_text(node)] and [_parse_text(node, s)] are
    different entries. *)
Definition call := (bool * list nat * option (list string))%type.
Definition call_eqb (a b : call) : bool :=
  Bool.eqb (fst (fst a)) (fst (fst b)) && list_eqb Nat.eqb (snd (fst a)) (snd (fst b)) &&
  opt_eqb (list_eqb String.eqb) (snd a) (snd b).

Definition cache := lru call (option string).
Definition M (A : Type) := cache -> res A * cache.
Definition ret {A} (a : A) : M A := fun c => (Ok a, c).
Definition lift {A} (r : res A) : M A := fun c => (r, c).
Definition mbind {A B} (m : M A) (k : A -> M B) : M B := fun c =>
  match m c with
  | (Ok a, c') => k a c'
  | (Err e, c') => (Err e, c')
  end.
Notation "'do' x <- e ; k" := (mbind e (fun x => k))
  (at level 200, x pattern, e at level 100, k at level 200, right associativity).

Fixpoint mmap {A B} (f : A -> M B) (l : list A) : M (list B) :=
  match l with
  | [] => ret []
  | x :: r => do y <- f x; do ys <- mmap f r; ret (y :: ys)
  end.
Fixpoint mfilter {A} (f : A -> M bool) (l : list A) : M (list A) :=
  match l with
  | [] => ret []
  | x :: r => do b <- f x; do ys <- mfilter f r; ret (if b then x :: ys else ys)
  end.

(** The values that are references, calculator.py:405-412: [is_ref] tells, by the tags
    that lead to it, whether the datatype of a schema node starts with 'identityref' or is
    'instance-identifier'; [default] is what [IdentityRef(device, node).default] or
    [InstanceIdentifier(device, node).default] gives for the text of an element, or
    raises. It depends on the tag and on the namespaces in scope, so on the tree, the place
    and the tags of the element. RefM.v has both functions. *)
Record references := References {
  is_ref : list string -> bool;
  default : bool -> list nat -> list string -> string -> res string }.

Section Calculator.
(** The schema of the device with its references, and the size of the cache. *)
Variable dev : snode.
Variable refs : references.
Variable max : nat.

(** The body of [_parse_text], calculator.py:397-417. *)
Definition parse_body (n : node) (s : option schema) : res (option string) :=
  match xtext (n_xml n) with
  | None => Ok None
  | Some t =>
      let! s' := match s with Some h => Ok h | None => get_schema_node dev n end in
      if is_ref refs (fst s')
      then let! v := default refs (n_first n) (n_path n) (n_tags n) t in Ok (Some v)
      else Ok (parse_text (snd s') (n_xml n))
  end.

(** [self._parse_text(node, s)] after [__attach_per_instance_cache],
    calculator.py:362-377. *)
Definition parse_call (n : node) (s : option schema) : M (option string) :=
  lru_call call_eqb max (n_first n, n_path n, option_map fst s) (parse_body n s).

(** [_same_text], calculator.py:419-442 *)
Definition same_text_c (a b : node) : M bool :=
  match xtext (n_xml a), xtext (n_xml b) with
  | None, None => ret true
  | _, _ => do x <- parse_call a None; do y <- parse_call b None; ret (ostr_eqb x y)
  end.

(** [find_one_child], calculator.py:141-154 *)
Definition find_one (k : string) (n : node) : res node :=
  match kids_of k n with
  | [c] => Ok c
  | _ => Err ConfigError
  end.

(** [build_index_tuple], calculator.py:156-163. [_get_list_keys], calculator.py:265-285,
    is [s_keys]. *)
Definition index_tuple (n : node) (s : schema) : M (list (option string)) :=
  mmap (fun k => do c <- lift (find_one k n); parse_call c (Some s)) (s_keys (si (snd s))).

(** [type_for_tag], calculator.py:165-182: kept during one [_pair_children]. *)
Definition types := list (string * schema).
Definition type_for_tag (ts : types) (n : node) : res (schema * types) :=
  match assoc String.eqb (xtag (n_xml n)) ts with
  | Some h => Ok (h, ts)
  | None => let! h := get_schema_node dev n in Ok (h, (xtag (n_xml n), h) :: ts)
  end.

(** [build_unique_id], calculator.py:184-196 *)
Definition unique_id (ts : types) (n : node) : M (uid * types) :=
  do (h, ts') <- lift (type_for_tag ts n);
  match sty (snd h) with
  | TLeafList => do x <- parse_call n (Some h); ret ((xtag (n_xml n), KText x), ts')
  | TList => do l <- index_tuple n h; ret ((xtag (n_xml n), KTup l), ts')
  | _ => ret ((xtag (n_xml n), KNone), ts')
  end.

(** The loops that fill [ones] and [twos], calculator.py:198-214. *)
Fixpoint index_c (ts : types) (acc : list (uid * node)) (l : list node) : M (list (uid * node) * types) :=
  match l with
  | [] => ret (acc, ts)
  | n :: r =>
      do (u, ts') <- unique_id ts n;
      match assoc uid_eqb u acc with
      | Some _ => lift (Err ConfigError)
      | None => index_c ts' (acc ++ [(u, n)]) r
      end
  end.

(** [_pair_children], calculator.py:115-220 *)
Definition pair_children_c (a b : node) : M (list (option node * option node)) :=
  do (ones, ts) <- index_c [] [] (kids a);
  do (twos, _) <- index_c ts [] (kids b);
  let keys := map fst ones ++ filter (fun u => negb (mem uid_eqb u (map fst ones))) (map fst twos) in
  ret (map (fun u => (assoc uid_eqb u ones, assoc uid_eqb u twos)) keys).

(** [_is_peer], calculator.py:319-360 *)
Fixpoint is_peer (keys : list string) (a b : node) : M bool :=
  match keys with
  | [] => ret true
  | k :: r =>
      match kids_of k a, kids_of k b with
      | [x], [y] => do e <- same_text_c x y; if e then is_peer r a b else ret false
      | _, _ => lift (Err ConfigError)
      end
  end.

(** [_get_peers], calculator.py:287-317 *)
Definition get_peers (n parent : node) : M (list node) :=
  let peers := kids_of (xtag (n_xml n)) parent in
  do h <- lift (get_schema_node dev n);
  match sty (snd h) with
  | TLeafList => mfilter (fun x => same_text_c n x) peers
  | TList => mfilter (fun x => is_peer (s_keys (si (snd h))) n x) peers
  | _ => ret peers
  end.

(** The check of the order of one child in [_node_le], calculator.py:551-575: [false]
    stands for [return False]. *)
Definition in_order (n n' a b : node) : M bool :=
  match elders (xtag (n_xml n)) n a with
  | [] => ret true
  | e :: _ =>
      do ps <- get_peers e b;
      match ps with
      | [] => ret false
      | [p] => ret (mem node_eqb p (elders (xtag (n_xml n)) n' b))
      | _ => lift (Err ConfigError)
      end
  end.

(** [_node_le], calculator.py:511-579, with a bound on the depth. Simplified: no tails,
    see XmlM.v. *)
Fixpoint node_le_c (fuel : nat) (a b : node) {struct fuel} : M bool :=
  match fuel with
  | 0 => lift (Err OutOfFuel)
  | S f =>
      if negb (String.eqb (xtag (n_xml a)) (xtag (n_xml b))) then ret false else
      do st <- same_text_c a b;
      if negb st then ret false else
      if negb (attrs_sub (xattrs (n_xml a)) (xattrs (n_xml b))) then ret false else
      do ps <- pair_children_c a b;
      (fix loop (l : list (option node * option node)) : M bool :=
         match l with
         | [] => ret true
         | (None, _) :: r => loop r
         | (Some _, None) :: _ => ret false
         | (Some n, Some n') :: r =>
             do h <- lift (get_schema_node dev n);
             do o <- (if is_user_seq (snd h) then in_order n n' a b else ret true);
             if negb o then ret false else
             do le <- node_le_c f n n';
             if le then loop r else ret false
         end) ps
  end.

(** The properties of a calculator for the trees [x] and [y], calculator.py:483-509. *)
Inductive query := QLe | QLt | QGe | QGt | QEq | QNe.

Definition top (first : bool) (x : xml) : node := Node first [] [] x.
Definition le_c (x y : xml) : M bool := node_le_c (height x) (top true x) (top false y).
Definition ge_c (x y : xml) : M bool := node_le_c (height y) (top false y) (top true x).
(** Python's [a and b], [a or b] and [not a] *)
Definition mand (a b : M bool) : M bool := do x <- a; if x then b else ret false.
Definition mor (a b : M bool) : M bool := do x <- a; if x then ret true else b.
Definition mnot (a : M bool) : M bool := do x <- a; ret (negb x).

Definition ask (x y : xml) (q : query) : M bool :=
  match q with
  | QLe => le_c x y
  | QLt => mand (le_c x y) (mnot (ge_c x y))
  | QGe => ge_c x y
  | QGt => mand (ge_c x y) (mnot (le_c x y))
  | QEq => mand (le_c x y) (ge_c x y)
  | QNe => mor (mnot (le_c x y)) (mnot (ge_c x y))
  end.

(** The answers of one calculator that is asked several times, while the trees may be
    changed in place between the questions (the elements stay the same objects). Every
    question comes with the trees of that moment. *)
Fixpoint asks (c : cache) (l : list (query * (xml * xml))) : list (res bool) :=
  match l with
  | [] => []
  | (q, (x, y)) :: r => let '(a, c') := ask x y q c in a :: asks c' r
  end.

(** A new calculator. *)
Definition calculator (l : list (query * (xml * xml))) : list (res bool) := asks [] l.
End Calculator.

(** Some calls of one cached function, most recent last; [f] may change between calls. *)
Fixpoint lru_run {K V} (eqb : K -> K -> bool) (max : nat) (l : list (K * res V)) (c : lru K V)
  : list (res V) * lru K V :=
  match l with
  | [] => ([], c)
  | (k, v) :: r =>
      let '(a, c1) := lru_call eqb max k v c in
      let '(as_, c2) := lru_run eqb max r c1 in (a :: as_, c2)
  end.

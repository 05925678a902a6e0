(** C47-C49 and C56: the choice of a revision, the values of an identityref, compact leafref
    paths and the copy of an rpc. *)
From Coq Require Import String Ascii List Bool Arith Lia.
From Verif Require Import Base CompileM CompileSpec CompileP CompilePropsP.
Import ListNotations.
Open Scope string_scope.
Open Scope list_scope.
Open Scope nat_scope.

(** ** C47
    Nothing is chosen only if the module is not there; otherwise a revision of the module is
    chosen and none of its revisions is later. *)
Theorem C47_newest : forall mods name, (forall r, In (name, r) mods -> exists d, Valid d /\ r = written d) ->
  match latest_revision mods name with
  | None => forall r, ~ In (name, r) mods
  | Some r => In (name, r) mods /\
      forall d x, Valid d -> r = written d -> Valid x -> In (name, written x) mods -> ~ Later x d
  end.
Proof. exact latest_newest. Qed.
Print Assumptions C47_newest.

Example C47_newest_example : (forall r, In ("a", r) ex_mods -> exists d, Valid d /\ r = written d) /\
  latest_revision ex_mods "a" = Some "2019-02-01".
Proof. split; [exact ex_mods_dates | reflexivity]. Qed.

(** A module without a revision statement hides every dated revision. *)
Theorem C47_undated : forall mods name,
  (forall r, In (name, r) mods -> r = "unknown" \/ exists d, Valid d /\ r = written d) ->
  In (name, "unknown") mods -> latest_revision mods name = Some "unknown".
Proof. exact unknown_wins. Qed.
Print Assumptions C47_undated.

Example C47_undated_example : latest_revision [("a", "unknown"); ("a", "2019-02-01")] "a" = Some "unknown".
Proof. reflexivity. Qed.

(** ** C48
    What holds: an identity whose first base was met earlier in the scan, as a root identity
    or as the first base of another identity, is among the values. *)
Theorem C48_listed_partial : forall module ms l1 m i l2 mn n mt bt, Named ms ->
  all_ids ms = l1 ++ (m, i) :: l2 -> DerivedFirst module m i mn n ->
  (exists m0 i0, In (m0, i0) l1 /\ (IsId m0 i0 mn n /\ id_bases i0 = [] \/ DerivedFirst module m0 i0 mn n)) ->
  Means mt bt mn n ->
  exists l, identityref_values (identity_deps module ms []) (module_prefixes ms []) mt bt = Ok l /\
    In (ms_prefix m ++ ":" ++ id_name i)%string l.
Proof. exact derived_listed. Qed.
Print Assumptions C48_listed_partial.

Example C48_listed_example : let ms := [ex_t; ex_u] in
  Named ms /\ all_ids ms = [(ex_t, Identity "animal" [])] ++ (ex_u, Identity "dog" ["x:animal"]) ::
    [(ex_u, Identity "cat" ["x:animal"; "up:pet"]); (ex_u, Identity "puppy" ["up:dog"]); (ex_u, Identity "pet" [])] /\
  DerivedFirst "u" ex_u (Identity "dog" ["x:animal"]) "t" "animal" /\
  Means ex_u "x:animal" "t" "animal" /\
  identityref_values (identity_deps "u" ms []) (module_prefixes ms []) ex_u "x:animal" = Ok ["up:dog"; "up:cat"].
Proof. exact ex_listed. Qed.

(** Conversely every value is an identity derived from the base. *)
Theorem C48_sound : forall module ms mt bt mn n l v, Named ms -> Clean module ms -> In mt ms -> Means mt bt mn n ->
  identityref_values (identity_deps module ms []) (module_prefixes ms []) mt bt = Ok l -> In v l ->
  exists m i, In (m, i) (all_ids ms) /\ v = (ms_prefix m ++ ":" ++ id_name i)%string /\ Derived m i mn n.
Proof. exact listed_derived. Qed.
Print Assumptions C48_sound.

Example C48_sound_example : Named [ex_t; ex_u] /\ Clean "u" [ex_t; ex_u] /\ In ex_u [ex_t; ex_u].
Proof. exact (conj (proj1 ex_listed) (conj ex_clean (or_intror (or_introl eq_refl)))). Qed.

(** The full statement is false. The first identity derived from a base that has not been met
    yet is lost; *)
Theorem C48_order_refuted : let ms := [ex_u; ex_t] in
  Named ms /\ Clean "u" ms /\ In (ex_u, Identity "dog" ["x:animal"]) (all_ids ms) /\
  Derived ex_u (Identity "dog" ["x:animal"]) "t" "animal" /\ Means ex_u "x:animal" "t" "animal" /\
  identityref_values (identity_deps "u" ms []) (module_prefixes ms []) ex_u "x:animal" = Ok ["up:cat"].
Proof. exact order_lost. Qed.
Print Assumptions C48_order_refuted.

(** so is every identity of an imported module with a base written without prefix; *)
Theorem C48_import_refuted : let ms := [ex_v; ex_w] in
  Named ms /\ In (ex_v, Identity "square" ["shape"]) (all_ids ms) /\
  Derived ex_v (Identity "square" ["shape"]) "v" "shape" /\ Means ex_w "v:shape" "v" "shape" /\
  identityref_values (identity_deps "w" ms []) (module_prefixes ms []) ex_w "v:shape" = Ok [].
Proof. exact import_lost. Qed.
Print Assumptions C48_import_refuted.

(** and so is an identity derived from the base by its second base statement. *)
Theorem C48_second_base_refuted : let ms := [ex_t; ex_u] in
  Named ms /\ In (ex_u, Identity "cat" ["x:animal"; "up:pet"]) (all_ids ms) /\
  Derived ex_u (Identity "cat" ["x:animal"; "up:pet"]) "u" "pet" /\ Means ex_u "up:pet" "u" "pet" /\
  identityref_values (identity_deps "u" ms []) (module_prefixes ms []) ex_u "up:pet" = Ok [].
Proof. exact second_lost. Qed.
Print Assumptions C48_second_base_refuted.

(** ** C49
    A path in which no name without prefix follows the prefix of another module keeps its
    meaning, and no prefix is written twice in a row. Predicates are not covered. *)
Theorem C49_kept_partial : forall local p, psteps p <> [] -> Forall SimpleStep (psteps p) -> Steady local local (psteps p) ->
  exists q, compact_path local (show p) = show q /\ absolute q = absolute p /\ Forall SimpleStep (psteps q) /\
    compact_meaning local (psteps q) = map (yang_meaning local) (psteps p) /\ Tight local (psteps q).
Proof. exact compact_keeps. Qed.
Print Assumptions C49_kept_partial.

Example C49_kept_example : psteps ex_path <> [] /\ Forall SimpleStep (psteps ex_path) /\ Steady "m" "m" (psteps ex_path) /\
  compact_path "m" (show ex_path) = "../../a/b/if:c/d/m:e".
Proof. exact ex_path_ok. Qed.

(** The text of such a path has only one reading. *)
Theorem C49_one_reading : forall p q, psteps p <> [] -> psteps q <> [] ->
  Forall SimpleStep (psteps p) -> Forall SimpleStep (psteps q) -> show p = show q -> p = q.
Proof. exact show_inj. Qed.
Print Assumptions C49_one_reading.

Example C49_one_reading_example : psteps ex_path <> [] /\ Forall SimpleStep (psteps ex_path).
Proof. exact (conj (proj1 ex_path_ok) (proj1 (proj2 ex_path_ok))). Qed.

(** The full statement is false. *)
Theorem C49_refuted : exists local p, psteps p <> [] /\ Forall SimpleStep (psteps p) /\
  forall q, Forall SimpleStep (psteps q) -> psteps q <> [] -> show q = compact_path local (show p) ->
    compact_meaning local (psteps q) <> map (yang_meaning local) (psteps p).
Proof. exact path_lost. Qed.
Print Assumptions C49_refuted.

(** ** C56
    The copy of an element without comments has its tags, text, attributes and children in
    order, and prefixes mean the same. *)
Theorem C56_copied_partial : forall x outer out, NoDup (map fst outer) -> NoComment x ->
  exists y, append_copy outer out x = Ok y /\ Copied outer out x y.
Proof. exact copy_keeps. Qed.
Print Assumptions C56_copied_partial.

Example C56_copied_example : NoComment ex_node /\
  append_copy [] [(None, "u:nc")] ex_node = Ok (
  NElem "{u:nc}config" None [] [(Some "n", "u:nc")]
    [NElem "{u:x}top" None [("{u:nc}operation", "merge")] [(None, "u:x")]
       [NElem "{u:x}ref" (Some "y:val") [] [(Some "y", "u:y")] []; NElem "{u:x}leaf" (Some "1") [] [] []]]).
Proof. exact ex_node_ok. Qed.

(** With a comment anywhere nothing is copied. *)
Theorem C56_comment_refuted : forall x outer out, ~ NoComment x -> append_copy outer out x = Err TypeError.
Proof. exact copy_comment. Qed.
Print Assumptions C56_comment_refuted.

Example C56_comment_example : ~ NoComment ex_comment.
Proof. intros H. inversion H as [t tx a d k K E]. inversion K as [|c r C R]. inversion C. Qed.

(** C87: the caches of a calculator. *)
From Coq Require Import String Ascii List Bool Arith Lia.
From Verif Require Import Base BaseP XmlM CalcM CacheM CacheSpec CacheP CachePropsP DataSpec DeltaSpec ExampleM.
Import ListNotations.
Open Scope string_scope.
Open Scope list_scope.

(** A calculator asked any number of times answers as if nothing were cached, whatever
    the size of the cache, as long as texts are not changed between the questions: as the
    comparison of CalcM.v does for the trees with their references in default form. *)
Theorem C87_answers_partial : forall dev R max qs, wfs dev = true -> sty dev = TRoot -> PlainKeys dev R ->
  (forall q x y, In (q, (x, y)) qs -> (exists x', canon R true [] [] x = Ok x') /\ (exists y', canon R false [] [] y = Ok y')) ->
  (forall q x y q' x' y', In (q, (x, y)) qs -> In (q', (x', y')) qs -> TextAlike x x' /\ TextAlike y y') ->
  calculator dev R max qs = map (fun q => let! x' := canon R true [] [] (fst (snd q)) in
                                          let! y' := canon R false [] [] (snd (snd q)) in
                                          cmp (fst q) dev x' y') qs.
Proof. exact calculator_right. Qed.
Print Assumptions C87_answers_partial.

(** Without references, also with exceptions of any kind. *)
Theorem C87_plain : forall dev max qs, wfs dev = true -> sty dev = TRoot ->
  (forall q x y q' x' y', In (q, (x, y)) qs -> In (q', (x', y')) qs -> TextAlike x x' /\ TextAlike y y') ->
  calculator dev no_refs max qs = map (fun q => cmp (fst q) dev (fst (snd q)) (snd (snd q))) qs.
Proof. exact calculator_plain. Qed.
Print Assumptions C87_plain.

(** What the answers mean. *)
Theorem C87_meaning : forall dev R max qs x y x' y', wfs dev = true -> sty dev = TRoot -> PlainKeys dev R ->
  canon R true [] [] x = Ok x' -> canon R false [] [] y = Ok y' ->
  valid dev x' = true -> valid dev y' = true -> xtag x' = xtag y' ->
  exists le ge, (le = true <-> Contained dev x' y') /\ (ge = true <-> Contained dev y' x') /\
    calculator dev R max (map (fun q => (q, (x, y))) qs) =
    map (fun q => Ok (match q with
                      | QLe => le | QGe => ge | QEq => le && ge | QNe => negb (le && ge)
                      | QLt => le && negb ge | QGt => ge && negb le
                      end)) qs.
Proof. exact calculator_meaning. Qed.
Print Assumptions C87_meaning.

(** Examples without references; PropsRefs.v has some with references. *)
Example C87_case : wfs ex_schema = true /\ sty ex_schema = TRoot /\ PlainKeys ex_schema no_refs /\
  canon no_refs true [] [] ex_a = Ok ex_a /\ canon no_refs false [] [] ex_b = Ok ex_b /\
  valid ex_schema ex_a = true /\ valid ex_schema ex_b = true /\ xtag ex_a = xtag ex_b /\
  calculator ex_schema no_refs maxsize [(QEq, (ex_a, ex_a')); (QLe, (ex_a, ex_a'))] = [Ok true; Ok true] /\
  calculator ex_schema no_refs 2 [(QNe, (ex_a, ex_b)); (QLe, (ex_a, ex_b)); (QEq, (ex_a, ex_b))] = [Ok true; Ok false; Ok false].
Proof. split; [| split; [| split; [apply no_refs_plain |]]]; repeat split; vm_compute; reflexivity. Qed.

Example C87_case_changed :
  TextAlike (ca_text "x") ca_attr /\
  calculator ex_schema no_refs maxsize [(QEq, (ca_text "x", ca_text "x")); (QEq, (ca_attr, ca_text "x"))] = [Ok true; Ok false].
Proof. split; [repeat constructor | vm_compute; reflexivity]. Qed.

(** If a text is changed in place the old answer is given again. *)
Theorem C87_text_refuted : exists dev x x' y, wfs dev = true /\ sty dev = TRoot /\
  valid dev x = true /\ valid dev x' = true /\ valid dev y = true /\
  calculator dev no_refs maxsize [(QEq, (x, y)); (QEq, (x', y))] = [Ok true; Ok true] /\
  calculator dev no_refs maxsize [(QEq, (x', y))] = [Ok false].
Proof.
  exists ex_schema, (ca_text "x"), (ca_text "z"), (ca_text "x"). repeat split; vm_compute; reflexivity.
Qed.
Print Assumptions C87_text_refuted.

(** The cache: whatever is asked, and however the function changes, a key among the
    [max] keys asked last gets the answer it got last, every other key is computed,
    exceptions are not kept, and there are never more than [max] entries. *)
Theorem C87_recent : forall (K V : Type) (eqb : K -> K -> bool) (dec : forall a b : K, {a = b} + {a <> b}),
  (forall a b, eqb a b = true <-> a = b) ->
  forall max (calls : list (K * res V)),
  fst (lru_run eqb max calls []) = answers dec max [] calls /\ length (snd (lru_run eqb max calls [])) <= max.
Proof. exact lru_recent. Qed.
Print Assumptions C87_recent.

Example C87_recent_case :
  fst (lru_run Nat.eqb 2 [(1, Ok "a"); (2, Err ConfigError); (3, Ok "c"); (1, Ok "new"); (4, Ok "d"); (3, Ok "e"); (1, Ok "f")] [])
  = [Ok "a"; Err ConfigError; Ok "c"; Ok "a"; Ok "d"; Ok "e"; Ok "f"].
Proof. vm_compute. reflexivity. Qed.

(** Example data and closing lemmas for PropsCache.v. *)
From Coq Require Import String Ascii List Bool Arith Lia.
From Verif Require Import Base BaseP XmlM CalcM CacheM CacheSpec CacheP DeltaSpec DataSpec DataP CompareP ExampleM.
Import ListNotations.
Open Scope string_scope.
Open Scope list_scope.

Lemma Good_nil : forall dev R x y, Good dev R x y [].
Proof. intros dev R x y n sn v []. Qed.

Lemma calculator_right : forall dev R max qs, wfs dev = true -> sty dev = TRoot -> PlainKeys dev R ->
  (forall q x y, In (q, (x, y)) qs -> (exists x', canon R true [] [] x = Ok x') /\ (exists y', canon R false [] [] y = Ok y')) ->
  (forall q x y q' x' y', In (q, (x, y)) qs -> In (q', (x', y')) qs -> TextAlike x x' /\ TextAlike y y') ->
  calculator dev R max qs = map (fun q => let! x' := canon R true [] [] (fst (snd q)) in
                                          let! y' := canon R false [] [] (snd (snd q)) in
                                          cmp (fst q) dev x' y') qs.
Proof.
  intros dev R max qs W TR PK C H. destruct qs as [| [q0 [x0 y0]] r]; [reflexivity |]. unfold calculator.
  apply (asks_right dev R max W TR PK _ x0 y0); [apply Good_nil |].
  apply Forall_forall. intros [q [x y]] I. cbn [fst snd].
  destruct (H q0 x0 y0 q x y) as [A B]; [left; auto | exact I |]. destruct (C q x y I) as [D E]. auto.
Qed.

Lemma calculator_plain : forall dev max qs, wfs dev = true -> sty dev = TRoot ->
  (forall q x y q' x' y', In (q, (x, y)) qs -> In (q', (x', y')) qs -> TextAlike x x' /\ TextAlike y y') ->
  calculator dev no_refs max qs = map (fun q => cmp (fst q) dev (fst (snd q)) (snd (snd q))) qs.
Proof.
  intros dev max qs W TR H. rewrite calculator_right; auto.
  - apply map_ext. intros [q [x y]]. cbn [fst snd]. rewrite !canon_no_refs. reflexivity.
  - apply no_refs_plain.
  - intros q x y _. rewrite !canon_no_refs. eauto.
Qed.

(** What the answers mean. *)
Lemma calculator_meaning : forall dev R max qs x y x' y', wfs dev = true -> sty dev = TRoot -> PlainKeys dev R ->
  canon R true [] [] x = Ok x' -> canon R false [] [] y = Ok y' ->
  valid dev x' = true -> valid dev y' = true -> xtag x' = xtag y' ->
  exists le ge, (le = true <-> Contained dev x' y') /\ (ge = true <-> Contained dev y' x') /\
    calculator dev R max (map (fun q => (q, (x, y))) qs) =
    map (fun q => Ok (match q with
                      | QLe => le | QGe => ge | QEq => le && ge | QNe => negb (le && ge)
                      | QLt => le && negb ge | QGt => ge && negb le
                      end)) qs.
Proof.
  intros dev R max qs x y x' y' W TR PK Cx Cy Vx Vy T.
  destruct (cmp_le_iff dev x' y' Vx Vy T) as (le & E1 & I1).
  destruct (cmp_le_iff dev y' x' Vy Vx (eq_sym T)) as (ge & E2 & I2).
  exists le, ge. split; auto. split; auto.
  destruct (cmp_ops dev x' y' le ge E1 E2) as (A & _ & B & C & D & _).
  rewrite calculator_right; auto.
  - rewrite map_map. apply map_ext. intros q. cbn [fst snd]. rewrite Cx, Cy. cbn [bind]. destruct q; cbn [cmp]; auto.
  - intros q u v I. apply in_map_iff in I. destruct I as (? & Q & _). injection Q as _ <- <-. eauto.
  - intros q u v q' u' v' I I'. apply in_map_iff in I, I'. destruct I as (? & Q & _), I' as (? & Q' & _).
    injection Q as _ <- <-. injection Q' as _ <- <-. split; apply TextAlike_refl.
Qed.

(** [ex_a] after the value of its first leaf was changed in place, and with an attribute. *)
Definition ca_text (v : string) : xml := e_config [ e_leaf "label" v; e_leaf "banner" "b" ].
Definition ca_attr : xml :=
  Elem config_tag None [("a", "1")] [ e_leaf "label" "x"; Elem "banner" (Some "b") [("b", "2")] [] ].

Lemma lru_recent : forall (K V : Type) (eqb : K -> K -> bool) (dec : forall a b : K, {a = b} + {a <> b}),
  (forall a b, eqb a b = true <-> a = b) ->
  forall max (calls : list (K * res V)),
  fst (lru_run eqb max calls []) = answers dec max [] calls /\ length (snd (lru_run eqb max calls [])) <= max.
Proof.
  intros K V eqb dec E max calls. split; [| apply (lru_size eqb E dec)].
  apply lru_history; auto. split; [cbn; rewrite firstn_nil; auto | intros k v []].
Qed.

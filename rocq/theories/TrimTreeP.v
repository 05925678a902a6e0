(** Proofs for C18: removal of defaults for all schemas. *)
From Coq Require Import String List Bool.
From Verif Require Import Base BaseP XmlM CalcM CalcP NetconfM ConfigM ListP DataSpec DataP TrimSpec TrimP TrimTreeSpec.
Import ListNotations.
Open Scope string_scope.
Open Scope list_scope.

Theorem trim_exact : forall x s y, trim s x = Ok y -> forall y', Trimmed s x y' <-> y' = y.
Proof.
  intro x. induction x as [t tx a ks IH] using xml_ind'. intros s y T y'. rewrite Forall_forall in IH.
  apply trim_inv in T. destruct T as (kss & HF & E). cbn [xkids set_kids] in *. subst y.
  assert (G : forall l kss, (forall c, In c l -> In c ks) -> Forall2 (fun c l => trim_kid s ks c = Ok l) l kss ->
    forall r', TrimmedKids s (Elem t tx a ks) l r' <-> r' = concat kss).
  { clear kss HF y'. intros l kss I HF. induction HF as [| c ys l kss R HF IHF]; intro r'.
    - cbn [concat]. split; [intro H; inversion H; auto | intros ->; constructor].
    - destruct (trim_kid_inv _ _ _ _ R) as (cs & c' & R1 & R2 & R3). cbn [concat].
      pose proof (schema_child_Defines _ _ _ R1) as D. pose proof (drops_iff c s (Elem t tx a ks) cs c' R1 R2) as DI. cbn [xkids] in DI.
      specialize (IHF (fun z Hz => I z (or_intror Hz))).
      destruct (trim_drops cs ks c') eqn:ED; subst ys.
      + assert (O : OnlyDefault cs (Elem t tx a ks) c) by (apply DI; auto). cbn [app]. split.
        * intro H. inversion H as [| ? ? ? cs0 ? ? D0 O0 H0 | ? ? ? cs0 c0 ? ? D0 O0 T0 H0]; subst.
          -- apply IHF. auto.
          -- assert (cs0 = cs) by (eapply Defines_schema_child; eauto). subst cs0. contradiction.
        * intros ->. apply (tk_drop s _ c cs); auto. apply IHF. auto.
      + assert (O : ~ OnlyDefault cs (Elem t tx a ks) c) by (intro O; apply DI in O; discriminate). cbn [app]. split.
        * intro H. inversion H as [| ? ? ? cs0 ? ? D0 O0 H0 | ? ? ? cs0 c0 ? ? D0 O0 T0 H0]; subst.
          -- assert (cs0 = cs) by (eapply Defines_schema_child; eauto). subst cs0. contradiction.
          -- assert (cs0 = cs) by (eapply Defines_schema_child; eauto). subst cs0. f_equal; [| apply IHF; auto].
             apply (IH c (I c (or_introl eq_refl)) cs c' R2). auto.
        * intros ->. apply (tk_keep s _ c cs); auto; [| apply IHF; auto]. apply (IH c (I c (or_introl eq_refl)) cs c' R2). auto. }
  split.
  - intro H. inversion H as [? ? ? ? ? ks' K]; subst. f_equal. apply (G ks kss (fun c Hc => Hc) HF). auto.
  - intros ->. constructor. apply (G ks kss (fun c Hc => Hc) HF). auto.
Qed.

(** Proofs about the values of types. *)
From Coq Require Import String Ascii List Bool Lia.
From Verif Require Import Base BaseP XmlM ConfigM CompileM CompileSpec CompileP TypeM TypeSpec.
Import ListNotations.
Open Scope string_scope.
Open Scope list_scope.

(** ** Induction over types *)
Section Ind.
  Variable P : ytype -> Prop.
  Hypothesis H : forall a d td en b p ms m,
    (forall t, td = Some (Some t) -> P t) -> (forall t, In t ms -> P t) -> P (YType a d td en b p ms m).
  Fixpoint ytype_ind' (t : ytype) : P t :=
    match t with
    | YType a d td en b p ms m =>
        H a d td en b p ms m
          (match td as o return (forall t', o = Some (Some t') -> P t') with
           | Some (Some x) => fun t' e => match e in _ = y return match y with Some (Some z) => P z | _ => True end with eq_refl => ytype_ind' x end
           | Some None => fun t' e => match e in _ = y return match y with Some (Some z) => P z | _ => True end with eq_refl => I end
           | None => fun t' e => match e in _ = y return match y with Some (Some z) => P z | _ => True end with eq_refl => I end
           end)
          ((fix go (l : list ytype) : forall t', In t' l -> P t' :=
              match l return forall t', In t' l -> P t' with
              | [] => fun t' i => match i with end
              | x :: r => fun t' i => match i with
                                      | or_introl e => match e in _ = y return P y with eq_refl => ytype_ind' x end
                                      | or_intror j => go r t' j
                                      end
              end) ms)
    end.
End Ind.

Lemma type_values_eq : forall ids pre a d td en b p ms m,
  type_values ids pre (YType a d td en b p ms m) =
  match d, td with
  | false, Some (Some t') => type_values ids pre t'
  | false, Some None => Ok ""
  | _, _ =>
      if String.eqb a "boolean" then Ok "true|false"
      else if String.eqb a "union" then
        let! vs := mapM (type_values ids pre) ms in Ok (join_bar (filter (fun v => negb (String.eqb v "")) vs))
      else if String.eqb a "enumeration" then Ok (join_bar en)
      else if String.eqb a "identityref" then
        match b with None => Ok "" | Some b => let! l := identityref_values ids pre m b in Ok (join_bar l) end
      else Ok ""
  end.
Proof.
  intros. cbn [type_values].
  assert (E : (let! vs := (fix go (l : list ytype) : res (list string) :=
                      match l with
                      | [] => Ok []
                      | x :: r => let! v := type_values ids pre x in
                                  let! vs := go r in
                                  Ok (if String.eqb v "" then vs else v :: vs)
                      end) ms in Ok (join_bar vs)) =
          (let! vs := mapM (type_values ids pre) ms in Ok (join_bar (filter (fun v => negb (String.eqb v "")) vs)))).
  { assert (G : forall ms, (fix go (l : list ytype) : res (list string) :=
                      match l with
                      | [] => Ok []
                      | x :: r => let! v := type_values ids pre x in
                                  let! vs := go r in
                                  Ok (if String.eqb v "" then vs else v :: vs)
                      end) ms = (let! vs := mapM (type_values ids pre) ms in Ok (filter (fun v => negb (String.eqb v "")) vs))).
    { clear. induction ms as [| x r IH]; [reflexivity |]. cbn [mapM]. destruct (type_values ids pre x) as [v | e]; cbn [bind]; [| reflexivity].
      rewrite IH. destruct (mapM (type_values ids pre) r) as [vs | e]; cbn [bind]; [| reflexivity].
      cbn [filter]. destruct (String.eqb v ""); reflexivity. }
    rewrite G. destruct (mapM (type_values ids pre) ms); reflexivity. }
  rewrite <- E. reflexivity.
Qed.

(** ** Texts with bars *)
Lemma app_nil_s : forall a b : string, (a ++ b)%string = "" -> a = "" /\ b = "".
Proof. intros [|] b H; [split; [reflexivity | exact H] | discriminate]. Qed.
Lemma app_assoc_s : forall a b c : string, ((a ++ b) ++ c)%string = (a ++ b ++ c)%string.
Proof. intros a b c. induction a as [| x a IH]; simpl; [reflexivity | rewrite IH; reflexivity]. Qed.
Lemma app_empty_r : forall a : string, (a ++ "")%string = a.
Proof. induction a as [| x a IH]; simpl; [reflexivity | rewrite IH; reflexivity]. Qed.

Lemma concat_cons : forall w l, l <> [] -> join_bar (w :: l) = (w ++ "|" ++ join_bar l)%string.
Proof. intros w [| x l] H; [congruence | reflexivity]. Qed.
Lemma join_empty : forall l, (forall w, In w l -> w <> "") -> (join_bar l = "" <-> l = []).
Proof.
  intros [| w [| x l]] H; (split; intro E; [| try reflexivity; try discriminate]); auto.
  - exfalso. apply (H w); [left; reflexivity | exact E].
  - exfalso. unfold join_bar in E. simpl in E. destruct (app_nil_s _ _ E) as (E1 & _). apply (H w); [left; reflexivity | exact E1].
Qed.

Lemma without_app : forall c a b, Without c (a ++ b)%string <-> Without c a /\ Without c b.
Proof. intros c a b. induction a as [| x a IH]; simpl; [tauto | rewrite IH; tauto]. Qed.

(** Two ways to cut a text at its first bar *)
Lemma first_bar : forall a b x y, Without "|" a -> Without "|" b -> (a ++ "|" ++ x)%string = (b ++ "|" ++ y)%string -> a = b /\ x = y.
Proof.
  induction a as [| c a IH]; intros [| d b] x y A B H; simpl in *.
  - injection H as H. auto.
  - injection H as H1 H2. destruct B as (B & _). congruence.
  - injection H as H1 H2. destruct A as (A & _). congruence.
  - injection H as H1 H2. destruct A as (_ & A), B as (_ & B). destruct (IH b x y A B H2) as (-> & ->). subst. auto.
Qed.
Lemma no_bar_app : forall a x b, Without "|" b -> (a ++ "|" ++ x)%string = b -> False.
Proof. intros a x b B <-. apply without_app in B. destruct B as (_ & (B & _)). congruence. Qed.

(** A bar at the end of a prefix is a bar of the text. *)
Lemma last_bar : forall p' w r v q, Without "|" w -> ((p' ++ "|") ++ v ++ q)%string = (w ++ "|" ++ r)%string ->
  (p' = w /\ (v ++ q)%string = r) \/ exists p2, p' = (w ++ "|" ++ p2)%string /\ ((p2 ++ "|") ++ v ++ q)%string = r.
Proof.
  induction p' as [| c p' IH]; intros [| d w] r v q W H; simpl in *.
  - left. injection H as H. auto.
  - exfalso. injection H as H1 H2. destruct W as (W & _). congruence.
  - injection H as H1 H2. subst c. right. exists p'. auto.
  - injection H as H1 H2. destruct W as (_ & W). subst d. destruct (IH w r v q W H2) as [(-> & E) | (p2 & -> & E)]; [left; auto | right; exists p2; auto].
Qed.

Lemma item_in : forall l, (forall w, In w l -> Plain w) -> forall v, Item v (join_bar l) <-> In v l.
Proof.
  induction l as [| w [| x l] IH]; intros P v.
  - split; [| intros []]. intros ((N & _) & p & q & E & _). change (join_bar []) with "" in E. symmetry in E.
    destruct (app_nil_s _ _ E) as (_ & E2). destruct (app_nil_s _ _ E2) as (E3 & _). contradiction.
  - change (join_bar [w]) with w. assert (W : Plain w) by (apply P; left; reflexivity). split.
    + intros (V & p & q & E & HP & HQ). left. rewrite E in W. destruct W as (_ & W). apply without_app in W. destruct W as (W1 & W2).
      apply without_app in W2. destruct W2 as (_ & W2).
      destruct HP as [-> | (p' & ->)]; [| apply without_app in W1; destruct W1 as (_ & (W1 & _)); congruence].
      destruct HQ as [-> | (q' & ->)]; [| destruct W2 as (W2 & _); congruence]. rewrite E. simpl. rewrite app_empty_r. reflexivity.
    + intros [<- | []]. split; [exact W |]. exists "", "". simpl. rewrite app_empty_r. auto.
  - assert (W : Plain w) by (apply P; left; reflexivity). rewrite concat_cons by discriminate.
    assert (IH' : forall v, Item v (join_bar (x :: l)) <-> In v (x :: l)) by (apply IH; intros y Y; apply P; right; exact Y). clear IH. split.
    + intros (V & p & q & E & HP & HQ). destruct HP as [-> | (p' & ->)].
      * left. destruct HQ as [-> | (q' & ->)].
        -- exfalso. simpl in E. rewrite app_empty_r in E. apply (no_bar_app w (join_bar (x :: l)) v); [apply V | exact E].
        -- cbn [append] in E. apply (first_bar w v (join_bar (x :: l)) q') in E; [apply E | apply W | apply V].
      * right. symmetry in E. destruct (last_bar p' w (join_bar (x :: l)) v q (proj2 W) E) as [(-> & E2) | (p2 & -> & E2)]; apply IH'.
        -- split; [exact V |]. exists "", q. split; [symmetry; exact E2 |]. split; [left; reflexivity | exact HQ].
        -- split; [exact V |]. exists (p2 ++ "|")%string, q. split; [symmetry; exact E2 |]. split; [right; exists p2; reflexivity | exact HQ].
    + intros [<- | I].
      * split; [exact W |]. exists "", ("|" ++ join_bar (x :: l))%string. split; [reflexivity |]. split; [left; reflexivity | right; eexists; reflexivity].
      * apply IH' in I. destruct I as (V & p & q & E & HP & HQ). split; [exact V |]. exists (w ++ "|" ++ p)%string, q. split; [rewrite E; rewrite !app_assoc_s; reflexivity |].
        split; [| exact HQ]. right. destruct HP as [-> | (p' & ->)]; [exists w; reflexivity | exists (w ++ "|" ++ p')%string; rewrite !app_assoc_s; reflexivity].
Qed.

(** Joining joined lists *)
Lemma join_app : forall a b, a <> [] -> b <> [] -> join_bar (a ++ b) = (join_bar a ++ "|" ++ join_bar b)%string.
Proof.
  induction a as [| w [| x a] IH]; intros b A B; [congruence | apply concat_cons; exact B |].
  change ((w :: x :: a) ++ b) with (w :: ((x :: a) ++ b)). rewrite concat_cons by discriminate. rewrite IH by (auto; discriminate).
  rewrite (concat_cons w (x :: a)) by discriminate. rewrite !app_assoc_s. reflexivity.
Qed.
Lemma join_concat : forall ls, (forall l w, In l ls -> In w l -> w <> "") ->
  join_bar (filter (fun v => negb (String.eqb v "")) (map join_bar ls)) = join_bar (concat ls).
Proof.
  induction ls as [| l ls IH]; intro N; [reflexivity |]. cbn [map filter concat].
  assert (IH' : join_bar (filter (fun v => negb (String.eqb v "")) (map join_bar ls)) = join_bar (concat ls)) by (apply IH; intros l' w A; apply N; right; exact A).
  assert (EL : join_bar l = "" <-> l = []) by (apply join_empty; intros w W; apply (N l w); [left; reflexivity | exact W]).
  destruct (String.eqb_spec (join_bar l) "") as [E | E]; cbn [negb].
  - apply EL in E. subst l. exact IH'.
  - assert (NL : l <> []) by (intro; apply E; apply EL; assumption).
    assert (EC : join_bar (concat ls) = "" <-> concat ls = []).
    { apply join_empty. intros w W. apply in_concat in W. destruct W as (l' & L & W). apply (N l' w); [right; exact L | exact W]. }
    destruct (filter (fun v => negb (String.eqb v "")) (map join_bar ls)) as [| f fs] eqn:F.
    + change (join_bar []) with "" in IH'. symmetry in IH'. apply EC in IH'. rewrite IH', app_nil_r. reflexivity.
    + assert (NC : concat ls <> []).
      { intro C. rewrite C in IH'. change (join_bar []) with "" in IH'.
        assert (Q : f = "" \/ f <> "") by (destruct (string_dec f ""); auto).
        assert (NF : f <> "").
        { assert (In f (filter (fun v => negb (String.eqb v "")) (map join_bar ls))) as J by (rewrite F; left; reflexivity).
          apply filter_In in J. destruct J as (_ & J). intro. subst f. discriminate. }
        destruct fs; simpl in IH'; [contradiction |]. unfold join_bar in IH'. simpl in IH'. destruct (app_nil_s _ _ IH') as (Z & _). contradiction. }
      rewrite concat_cons by discriminate. rewrite IH'. rewrite join_app by assumption. reflexivity.
Qed.

(** ** The values of a type *)
Lemma names_list : forall (I : mstmt -> string -> list string) ids pre, (forall m b, identityref_values ids pre m b = Ok (I m b)) ->
  forall t, Typed (Unrestricted I) t -> (forall v, Admits I t v -> v <> "") ->
  exists l, type_values ids pre t = Ok (join_bar l) /\ forall v, In v l <-> Admits I t v.
Proof.
  intros I ids pre HI. induction t as [a d td en b p ms m IT IM] using ytype_ind'. intros W N.
  rewrite type_values_eq. inversion W as [a0 d0 en0 b0 p0 ms0 m0 WM OK | a0 d0 t0 en0 b0 p0 ms0 m0 NB WT DE OK]; subst.
  - assert (E : forall (A : Type) (x : A), match d with true => x | false => x end = x) by (intros; destruct d; reflexivity).
    match goal with |- context [match d with _ => _ end] => rewrite E end. clear E.
    destruct (String.eqb_spec a "boolean") as [-> | N1].
    { exists ["true"; "false"]. split; [reflexivity |]. intro v. split.
      - intros [<- | [<- | []]]; constructor; auto.
      - intro A. inversion A; subst. simpl. intuition congruence. }
    destruct (String.eqb_spec a "union") as [-> | N2].
    { assert (L : exists ls, mapM (type_values ids pre) ms = Ok (map join_bar ls) /\ forall v, In v (concat ls) <-> exists t, In t ms /\ Admits I t v).
      { assert (NM : forall t v, In t ms -> Admits I t v -> v <> "") by (intros t v T A; apply N; econstructor; eauto).
        clear N W OK. induction ms as [| x r IH]; [exists []; split; [reflexivity |]; intro v; split; [intros [] | intros (t & [] & _)] |].
        destruct (IM x (or_introl eq_refl) (WM x (or_introl eq_refl)) (fun v => NM x v (or_introl eq_refl))) as (lx & EX & LX).
        destruct IH as (ls & ER & LR); [intros t T; apply IM; right; exact T | intros t T; apply WM; right; exact T | intros t v T; apply NM; right; exact T |].
        exists (lx :: ls). split; [cbn [mapM]; rewrite EX; cbn [bind]; rewrite ER; reflexivity |].
        intro v. cbn [concat]. rewrite in_app_iff, LX, LR. split.
        - intros [A | (t & T & A)]; [exists x; split; [left; reflexivity | exact A] | exists t; split; [right; exact T | exact A]].
        - intros (t & [<- | T] & A); [left; exact A | right; exists t; auto]. }
      destruct L as (ls & EL & LL). rewrite EL. cbn [bind]. exists (concat ls). split.
      - f_equal. apply join_concat. intros l w A B. apply N. assert (C : In w (concat ls)) by (apply in_concat; exists l; auto).
        apply LL in C. destruct C as (t & T & C). econstructor; eauto.
      - intro v. rewrite LL. split; [intros (t & T & A); econstructor; eauto | intro A; inversion A; subst; eauto]. }
    destruct (String.eqb_spec a "enumeration") as [-> | N3].
    { exists en. split; [reflexivity |]. intro v. split; [intro; constructor; auto | intro A; inversion A; subst; auto]. }
    destruct (String.eqb_spec a "identityref") as [-> | N4].
    { destruct b as [b |].
      - rewrite HI. cbn [bind]. exists (I m b). split; [reflexivity |]. intro v. split; [intro; constructor; auto | intro A; inversion A; subst; auto].
      - exists []. split; [reflexivity |]. intro v. split; [intros [] | intro A; inversion A]. }
    exists []. split; [reflexivity |]. intro v. split; [intros [] | intro A; inversion A; subst; congruence].
  - destruct d.
    + exists []. assert (E : forall (x : res string), (if String.eqb a "boolean" then Ok "true|false" else if String.eqb a "union" then x
         else if String.eqb a "enumeration" then Ok (join_bar en) else if String.eqb a "identityref" then
         match b with None => Ok "" | Some b => let! l := identityref_values ids pre m b in Ok (join_bar l) end else Ok "") = Ok "").
      { intro x. unfold value_types in NB. simpl in NB.
        destruct (String.eqb_spec a "boolean"); [exfalso; intuition congruence |]. destruct (String.eqb_spec a "union"); [exfalso; intuition congruence |].
        destruct (String.eqb_spec a "enumeration"); [exfalso; intuition congruence |]. destruct (String.eqb_spec a "identityref"); [exfalso; intuition congruence | reflexivity]. }
      rewrite E. split; [reflexivity |]. intro v. split; [intros [] | intro A; exfalso; exact (OK _ _ _ _ _ _ _ eq_refl v A)].
    + rewrite (DE eq_refl) in *. destruct (IT t0 eq_refl WT) as (l & E & L); [intros v A; apply N; apply ad_typedef; auto |].
      exists l. split; [exact E |]. intro v. rewrite L. split; [intro; apply ad_typedef; auto | intro A; inversion A; subst; auto].
Qed.

Theorem values_items : forall (I : mstmt -> string -> list string) ids pre, (forall m b, identityref_values ids pre m b = Ok (I m b)) ->
  forall t, Typed (Unrestricted I) t -> (forall v, Admits I t v -> Plain v) ->
  exists s, type_values ids pre t = Ok s /\ (forall v, Item v s <-> Admits I t v) /\ (s = "" <-> forall v, ~ Admits I t v).
Proof.
  intros I ids pre HI t W P. destruct (names_list I ids pre HI t W) as (l & E & L); [intros v A; apply P; exact A |].
  exists (join_bar l). split; [exact E |]. assert (PL : forall w, In w l -> Plain w) by (intros w A; apply P, L; exact A). split.
  - intro v. rewrite item_in by exact PL. apply L.
  - rewrite join_empty by (intros w A; apply PL; exact A). split.
    + intros -> v A. apply L in A. destruct A.
    + intro N. destruct l as [| w l]; [reflexivity |]. exfalso. apply (N w). apply L. left. reflexivity.
Qed.

(** A type that restricts a typedef has no values, whatever it names. *)
Theorem restricted_lost : forall ids pre a td en b p ms m, ~ In a value_types -> type_values ids pre (YType a true (Some td) en b p ms m) = Ok "".
Proof.
  intros ids pre a td en b p ms m NB. rewrite type_values_eq. unfold value_types in NB. simpl in NB.
  destruct (String.eqb_spec a "boolean"); [exfalso; intuition congruence |]. destruct (String.eqb_spec a "union"); [exfalso; intuition congruence |].
  destruct (String.eqb_spec a "enumeration"); [exfalso; intuition congruence |]. destruct (String.eqb_spec a "identityref"); [exfalso; intuition congruence | reflexivity].
Qed.

Theorem leaf_told : forall (I : mstmt -> string -> list string) ids pre local, (forall m b, identityref_values ids pre m b = Ok (I m b)) ->
  forall t, Typed (Unrestricted I) t -> (forall v, Admits I t v -> Plain v) -> (t_arg t = "identityref" -> t_base t <> None) ->
  exists d v u, leaf_type ids pre local (Some t) = Ok (Some (d, v, u)) /\
    (forall x, Item x v <-> Admits I t x) /\
    (t_arg t <> "leafref" -> t_arg t <> "identityref" -> d = t_arg t) /\
    (forall b, t_arg t = "identityref" -> t_base t = Some b -> d = ("identityref:" ++ b)%string) /\
    (t_arg t <> "union" -> u = None) /\
    (t_arg t = "union" -> (forall y, In y (t_members t) -> Plain (t_arg y)) ->
       exists w, u = Some w /\ forall x, Item x w <-> exists y, In y (t_members t) /\ t_arg y = x).
Proof.
  intros I ids pre local HI t W P B. destruct (values_items I ids pre HI t W P) as (s & E & L & _).
  assert (D : exists d, datatype local t = Ok d /\ (t_arg t <> "leafref" -> t_arg t <> "identityref" -> d = t_arg t) /\
    (forall b, t_arg t = "identityref" -> t_base t = Some b -> d = ("identityref:" ++ b)%string)).
  { unfold datatype. destruct (String.eqb_spec (t_arg t) "leafref") as [E1 | N1].
    - destruct (t_path t); eexists; (split; [reflexivity |]); (split; [congruence |]); intros b X; congruence.
    - destruct (String.eqb_spec (t_arg t) "identityref") as [E2 | N2].
      + destruct (t_base t) as [b |]; [| exfalso; apply B; auto]. eexists. split; [reflexivity |]. split; [congruence |].
        intros b' _ X. injection X as <-. rewrite E2. reflexivity.
      + eexists. split; [reflexivity |]. split; [reflexivity |]. intros b X. congruence. }
  destruct D as (d & D & D1 & D2). unfold leaf_type. rewrite D, E. cbn [bind]. eexists. eexists. eexists. split; [reflexivity |].
  split; [exact L |]. split; [exact D1 |]. split; [exact D2 |].
  destruct (String.eqb_spec (t_arg t) "union") as [U | U]; (split; [try congruence; auto |]); [| congruence].
  intros _ PM. eexists. split; [reflexivity |]. intro x. rewrite item_in.
  - rewrite in_map_iff. split; intros (y & A & C); exists y; auto.
  - intros w A. apply in_map_iff in A. destruct A as (y & <- & A). apply PM. exact A.
Qed.

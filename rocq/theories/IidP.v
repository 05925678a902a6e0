(** Proofs about the conversion of instance-identifiers. *)
From Coq Require Import String Ascii List Bool Arith Lia.
From Verif Require Import Base BaseP TagM TagSpec TagP RefM RefSpec RefP IidSpec.
Import ListNotations.
Open Scope string_scope.
Open Scope list_scope.
Open Scope nat_scope.

(** ** Pieces of the three phases *)

Inductive it := IS (q : list ascii) | IP (key lit conv : list ascii).

Definition same (n : nat) (l : list ascii) : piece := (l, n, l).
Definition sl : ascii := "/"%char.
Definition lb : ascii := "["%char.
Definition rb : ascii := "]"%char.
Definition eqc : ascii := "="%char.

Fixpoint one1 (acc : list ascii) (l : list it) : list piece :=
  match l with
  | [] => whole_piece acc
  | IS q :: r => one1 (acc ++ sl :: q) r
  | IP k lit c :: r => same 0 (acc ++ lb :: k ++ [eqc]) :: (lit, 1, c) :: one1 [rb] r
  end.

Definition five (k lit c : list ascii) : list piece :=
  [same 2 [lb]; same 2 k; same 2 [eqc]; (lit, 1, c); same 2 [rb]].

Fixpoint two (acc : list ascii) (l : list it) : list piece :=
  match l with
  | [] => whole_piece acc
  | IS q :: r => two (acc ++ sl :: q) r
  | IP k lit c :: r => whole_piece acc ++ five k lit c ++ two [] r
  end.

Fixpoint three (l : list it) : list piece :=
  match l with
  | [] => []
  | IS q :: r => same 0 [sl] :: same 3 q :: three r
  | IP k lit c :: r => five k lit c ++ three r
  end.

Fixpoint vis2 (l : list it) : list ascii :=
  match l with
  | [] => []
  | IS q :: r => sl :: q ++ vis2 r
  | IP k _ _ :: r => lb :: k ++ eqc :: rb :: vis2 r
  end.

Fixpoint vis3 (l : list it) : list ascii :=
  match l with
  | [] => []
  | IS q :: r => sl :: q ++ vis3 r
  | IP _ _ _ :: r => vis3 r
  end.

Lemma one1_split : forall l, exists x r, forall acc, one1 acc l = whole_piece (acc ++ x) ++ r.
Proof.
  induction l as [|[q|k lit c] l (x & r & IH)].
  - exists [], []. intros acc. cbn [one1]. rewrite !app_nil_r. reflexivity.
  - exists (sl :: q ++ x), r. intros acc. cbn [one1]. rewrite IH, <- app_assoc. reflexivity.
  - exists (lb :: k ++ [eqc]), ((lit, 1, c) :: one1 [rb] l). intros acc. cbn [one1].
    rewrite whole_piece_ne by (destruct acc; discriminate). reflexivity.
Qed.

Lemma two_split : forall l, exists x r, forall acc, two acc l = whole_piece (acc ++ x) ++ r.
Proof.
  induction l as [|[q|k lit c] l (x & r & IH)].
  - exists [], []. intros acc. cbn [two]. rewrite !app_nil_r. reflexivity.
  - exists (sl :: q ++ x), r. intros acc. cbn [two]. rewrite IH, <- app_assoc. reflexivity.
  - exists [], (five k lit c ++ two [] l). intros acc. cbn [two]. rewrite app_nil_r. reflexivity.
Qed.

Lemma str_of_app : forall n a b, str_of n (a ++ b) = str_of n a ++ str_of n b.
Proof. intros. unfold str_of. rewrite filter_app, flat_map_app. reflexivity. Qed.

Lemma str_of_whole : forall n a, str_of n (whole_piece a) = a.
Proof. intros n [|c a]; [reflexivity|]. unfold str_of, whole_piece. cbn. rewrite app_nil_r. reflexivity. Qed.

Lemma str_of_cons : forall n p l, str_of n (p :: l) =
  (if (p_phase p =? 0) || (n <=? p_phase p) then p_str p else []) ++ str_of n l.
Proof. intros. unfold str_of. cbn [filter]. destruct ((p_phase p =? 0) || (n <=? p_phase p)); reflexivity. Qed.

Lemma str_of_one : forall l acc, str_of 2 (one1 acc l) = acc ++ vis2 l.
Proof.
  induction l as [|[q|k lit c] l IH]; intros acc; cbn [one1 vis2].
  - rewrite str_of_whole, app_nil_r. reflexivity.
  - rewrite IH, <- app_assoc. reflexivity.
  - rewrite !str_of_cons, IH. unfold same. cbn [p_phase p_str]. cbn [Nat.eqb Nat.leb orb app].
    rewrite <- !app_assoc. cbn [app]. rewrite <- app_assoc. reflexivity.
Qed.

Lemma str_of_two : forall l acc, str_of 3 (two acc l) = acc ++ vis3 l.
Proof.
  induction l as [|[q|k lit c] l IH]; intros acc; cbn [two vis3].
  - rewrite str_of_whole, app_nil_r. reflexivity.
  - rewrite IH, <- app_assoc. reflexivity.
  - rewrite !str_of_app, str_of_whole, IH. f_equal.
Qed.

(** ** Phase 2 *)

Lemma walked_app : forall n a b, walked n (a ++ b) = walked n a ++ walked n b.
Proof. intros. unfold walked. rewrite filter_app, flat_map_app. reflexivity. Qed.

Lemma walked_cons : forall n p l, walked n (p :: l) =
  (if (p_phase p =? 0) || (p_phase p =? n) then p_str p else []) ++ walked n l.
Proof. intros. unfold walked. cbn [filter]. destruct ((p_phase p =? 0) || (p_phase p =? n)); reflexivity. Qed.

Lemma walked_whole : forall n a, walked n (whole_piece a) = a.
Proof. intros n [|c a]; [reflexivity|]. unfold walked, whole_piece. cbn. rewrite app_nil_r. reflexivity. Qed.

Lemma bracket_skip_none : forall q whole idx rest ps, ~ In lb q ->
  bracket_loop whole idx (q ++ rest) ps None = bracket_loop whole (idx + length q) rest ps None.
Proof.
  induction q as [|c q IH]; intros whole idx rest ps H; cbn [app length].
  - rewrite Nat.add_0_r. reflexivity.
  - cbn [bracket_loop]. destruct (Ascii.eqb_spec c "[") as [E|E]; [exfalso; apply H; left; exact E|].
    rewrite IH by (intro; apply H; right; assumption). f_equal. lia.
Qed.

Lemma bracket_skip_some : forall q whole idx rest ps b, ~ In rb q ->
  bracket_loop whole idx (q ++ rest) ps (Some b) = bracket_loop whole (idx + length q) rest ps (Some b).
Proof.
  induction q as [|c q IH]; intros whole idx rest ps b H; cbn [app length].
  - rewrite Nat.add_0_r. reflexivity.
  - cbn [bracket_loop]. destruct (Ascii.eqb_spec c "]") as [E|E]; [exfalso; apply H; left; exact E|].
    rewrite IH by (intro; apply H; right; assumption). f_equal. lia.
Qed.

Ltac lens := repeat (rewrite ?walked_app, ?walked_cons, ?walked_whole, ?app_length; cbn [length p_phase p_str Nat.eqb orb app walked filter flat_map same]); try lia.

(** Cuts with positions given by equations. *)
Lemma cut_here : forall l1 a x b c l2 conv ph s e, x <> [] ->
  s = length (walked ph l1) + length a -> e = s + length x ->
  cut s e conv ph (l1 ++ (a ++ x ++ b, 0, c) :: l2) =
  l1 ++ filter nonempty [(a, 0, a); (x, ph, conv); (b, 0, b)] ++ l2.
Proof. intros l1 a x b c l2 conv ph s e Hx -> ->. exact (cut_exact l1 0 a x b c l2 conv ph Hx). Qed.

Definition LowOk (i : it) : Prop :=
  match i with
  | IS q => q <> [] /\ ~ In lb q /\ ~ In rb q /\ (forall c, In c q -> is_sep c = false)
  | IP k _ _ => k <> [] /\ ~ In rb k
  end.

Lemma slice_eq : forall a x b w s e, w = a ++ x ++ b -> s = length a -> e = s + length x -> slice s e w = x.
Proof. intros a x b w s e -> -> ->. apply slice_mid. Qed.

Lemma bracket_pred : forall k lit c r acc whole pre done,
  whole = pre ++ acc ++ lb :: k ++ eqc :: rb :: vis2 r -> length (walked 2 done) = length pre -> k <> [] ->
  bracket_cuts whole (length pre + length acc) (length pre + length acc + S (S (length k)))
    (done ++ one1 acc (IP k lit c :: r)) =
  (done ++ whole_piece acc ++ five k lit c) ++ one1 [] r.
Proof.
  intros k lit c r acc whole pre done Hw Hd Hk. unfold bracket_cuts.
  set (b := length pre + length acc). set (e := S (b + S (S (length k)))).
  assert (Hsub : slice b e whole = lb :: k ++ [eqc; rb]).
  { apply (slice_eq (pre ++ acc) _ (vis2 r)).
    - rewrite Hw. rewrite <- app_assoc. f_equal. f_equal. cbn [app]. rewrite <- app_assoc. reflexivity.
    - rewrite app_length. reflexivity.
    - unfold e. cbn [length]. rewrite app_length. cbn [length]. lia. }
  rewrite Hsub.
  assert (Hlen : length (lb :: k ++ [eqc; rb]) = length k + 3) by (cbn [length]; rewrite app_length; cbn [length]; lia).
  rewrite Hlen.
  assert (Hnth : nth_error (lb :: k ++ [eqc; rb]) (length k + 3 - 2) = Some eqc).
  { replace (length k + 3 - 2) with (S (length k)) by lia. cbn [nth_error].
    rewrite nth_error_app2 by lia. rewrite Nat.sub_diag. reflexivity. }
  rewrite Hnth. change (Ascii.eqb eqc "=") with true. cbv iota.
  assert (Hkey : slice 1 (length k + 3 - 2) (lb :: k ++ [eqc; rb]) = k).
  { apply (slice_eq [lb] k [eqc; rb]); [reflexivity | reflexivity | lia]. }
  rewrite Hkey. cbn [one1].
  (* [ *)
  assert (C1 : cut b (S b) ["["%char] 2 (done ++ same 0 (acc ++ lb :: k ++ [eqc]) :: (lit, 1, c) :: one1 [rb] r) =
    (done ++ whole_piece acc ++ [same 2 [lb]; same 0 (k ++ [eqc])]) ++ (lit, 1, c) :: one1 [rb] r).
  { assert (E := cut_here done acc [lb] (k ++ [eqc]) (acc ++ lb :: k ++ [eqc]) ((lit, 1, c) :: one1 [rb] r) ["["%char] 2 b (S b)).
    cbn [app] in E. etransitivity; [apply E; [discriminate|unfold b; lia|cbn [length]; lia]|]. clear E.
    rewrite <- !app_assoc. f_equal. unfold whole_piece. cbn [filter].
    assert (nonempty (k ++ [eqc], 0, k ++ [eqc]) = true) as -> by (unfold nonempty; cbn [p_str]; destruct k; reflexivity).
    destruct acc; reflexivity. }
  rewrite C1.
  (* ] *)
  destruct (one1_split r) as (x & rest & Hr).
  assert (C2 : cut (e - 1) e ["]"%char] 2
      ((done ++ whole_piece acc ++ [same 2 [lb]; same 0 (k ++ [eqc])]) ++ (lit, 1, c) :: one1 [rb] r) =
      (done ++ whole_piece acc ++ [same 2 [lb]; same 0 (k ++ [eqc]); (lit, 1, c); same 2 [rb]]) ++ one1 [] r).
  { rewrite (Hr [rb]), (Hr []). rewrite (whole_piece_ne ([rb] ++ x)) by discriminate. cbn [app].
    assert (E := cut_here (done ++ whole_piece acc ++ [same 2 [lb]; same 0 (k ++ [eqc]); (lit, 1, c)]) [] [rb] x (rb :: x) rest
                   ["]"%char] 2 (e - 1) e).
    cbn [app] in E. rewrite <- !app_assoc in E |- *. cbn [app] in E |- *. etransitivity; [apply E; [discriminate| |cbn [length]; lia]|].
    2:{ clear E. destruct x; reflexivity. }
    unfold same, e, b; lens. }
  rewrite C2.
  (* = *)
  assert (C3 : cut (e - 2) (e - 1) ["="%char] 2
      ((done ++ whole_piece acc ++ [same 2 [lb]; same 0 (k ++ [eqc]); (lit, 1, c); same 2 [rb]]) ++ one1 [] r) =
      (done ++ whole_piece acc ++ [same 2 [lb]; same 0 k; same 2 [eqc]; (lit, 1, c); same 2 [rb]]) ++ one1 [] r).
  { assert (E := cut_here (done ++ whole_piece acc ++ [same 2 [lb]]) k [eqc] [] (k ++ [eqc]) ((lit, 1, c) :: same 2 [rb] :: one1 [] r)
                   ["="%char] 2 (e - 2) (e - 1)).
    cbn [app] in E. rewrite <- !app_assoc in E |- *. cbn [app] in E |- *. etransitivity; [apply E; [discriminate| |cbn [length]; lia]|].
    2:{ clear E. cbn [filter].
      assert (nonempty (k, 0, k) = true) as -> by (unfold nonempty; cbn [p_str]; destruct k; [congruence | reflexivity]).
      reflexivity. }
    unfold same, e, b; lens. }
  rewrite C3.
  (* key *)
  assert (E := cut_here (done ++ whole_piece acc ++ [same 2 [lb]]) [] k [] k (same 2 [eqc] :: (lit, 1, c) :: same 2 [rb] :: one1 [] r)
                   k 2 (S b) (e - 2)).
  cbn [app] in E. rewrite app_nil_r in E. rewrite <- !app_assoc in E |- *. cbn [app] in E |- *. etransitivity; [apply E; [exact Hk| |unfold e; lia]|].
  2:{ clear E. cbn [filter].
    assert (nonempty (k, 2, k) = true) as -> by (unfold nonempty; cbn [p_str]; destruct k; [congruence | reflexivity]).
    reflexivity. }
  unfold same, b; lens.
Qed.

Lemma bracket_all : forall l acc done whole pre, Forall LowOk l ->
  whole = pre ++ acc ++ vis2 l -> length (walked 2 done) = length pre ->
  bracket_loop whole (length pre + length acc) (vis2 l) (done ++ one1 acc l) None = (done ++ two acc l, None).
Proof.
  induction l as [|[q|k lit c] l IH]; intros acc done whole pre HL Hw Hd.
  - reflexivity.
  - inversion HL as [|x y H1 H2]; subst x y. destruct H1 as (_ & H1 & _). cbn [vis2 one1 two] in *.
    change (sl :: q ++ vis2 l) with ((sl :: q) ++ vis2 l). rewrite bracket_skip_none.
    + rewrite <- (IH (acc ++ sl :: q) done whole pre H2); [|rewrite Hw, <- app_assoc; reflexivity|exact Hd].
      f_equal. rewrite app_length. lia.
    + intros [E|E]; [discriminate E | exact (H1 E)].
  - inversion HL as [|x y H1 H2]; subst x y. destruct H1 as (Hk & H1). cbn [vis2 two] in *.
    cbn [bracket_loop]. change (Ascii.eqb lb "[") with true. cbv iota.
    change (k ++ eqc :: rb :: vis2 l) with (k ++ [eqc] ++ rb :: vis2 l). rewrite app_assoc, bracket_skip_some.
    2:{ intros E. apply in_app_or in E as [E|[E|[]]]; [exact (H1 E) | discriminate E]. }
    cbn [bracket_loop]. change (Ascii.eqb rb "]") with true. cbv iota.
    replace (S (length pre + length acc) + length (k ++ [eqc])) with (length pre + length acc + S (S (length k)))
      by (rewrite app_length; cbn [length]; lia).
    rewrite bracket_pred by assumption.
    set (done' := done ++ whole_piece acc ++ five k lit c).
    assert (IH' := IH [] done' whole (pre ++ acc ++ lb :: k ++ [eqc; rb]) H2). cbn [app] in IH'.
    replace (S (length pre + length acc + S (S (length k)))) with (length (pre ++ acc ++ lb :: k ++ [eqc; rb]) + length (@nil ascii))
      by lens.
    rewrite IH'.
    + unfold done'. rewrite <- !app_assoc. reflexivity.
    + rewrite Hw. rewrite <- !app_assoc. cbn [app]. rewrite <- !app_assoc. reflexivity.
    + unfold done', five, same. lens.
Qed.

(** ** Phase 3 *)

Lemma element_pending : forall l whole idx ps b, 
  element_loop whole idx (vis3 l) ps (Some b) = element_loop whole idx (vis3 l) (cut b idx (slice b idx whole) 3 ps) None.
Proof.
  induction l as [|[q|k lit c] l IH]; intros whole idx ps b; cbn [vis3].
  - reflexivity.
  - cbn [element_loop]. change (is_sep sl) with true. cbv iota. reflexivity.
  - apply IH.
Qed.

Lemma element_skip : forall q whole idx rest ps b, (forall c, In c q -> is_sep c = false) ->
  element_loop whole idx (q ++ rest) ps (Some b) = element_loop whole (idx + length q) rest ps (Some b).
Proof.
  induction q as [|c q IH]; intros whole idx rest ps b H; cbn [app length].
  - rewrite Nat.add_0_r. reflexivity.
  - cbn [element_loop]. rewrite (H c (or_introl eq_refl)). rewrite IH by (intros; apply H; right; assumption).
    f_equal. lia.
Qed.

Lemma element_all : forall l done whole pre, Forall LowOk l ->
  whole = pre ++ vis3 l -> length (walked 3 done) = length pre ->
  element_loop whole (length pre) (vis3 l) (done ++ two [] l) None = done ++ three l.
Proof.
  induction l as [|[q|k lit c] l IH]; intros done whole pre HL Hw Hd.
  - reflexivity.
  - inversion HL as [|x y H1 H2]; subst x y. destruct H1 as (Hq & _ & _ & H1). cbn [vis3 two three app] in *.
    cbn [element_loop]. change (is_sep sl) with true. cbv iota.
    destruct q as [|c q]; [congruence|]. cbn [app element_loop].
    rewrite (H1 c (or_introl eq_refl)). cbv iota. rewrite element_skip by (intros; apply H1; right; assumption).
    rewrite element_pending.
    replace (S (S (length pre)) + length q) with (length (pre ++ sl :: c :: q)) by (rewrite app_length; cbn [length]; lia).
    assert (Hs : slice (S (length pre)) (length (pre ++ sl :: c :: q)) whole = c :: q).
    { apply (slice_eq (pre ++ [sl]) _ (vis3 l)).
      - rewrite Hw, <- app_assoc. reflexivity.
      - rewrite app_length. cbn [length]. lia.
      - rewrite app_length. cbn [length]. lia. }
    rewrite Hs. destruct (two_split l) as (x & rest & Hr).
    assert (C : cut (S (length pre)) (length (pre ++ sl :: c :: q)) (c :: q) 3 (done ++ two (sl :: c :: q) l) =
                (done ++ [same 0 [sl]; same 3 (c :: q)]) ++ two [] l).
    { rewrite (Hr (sl :: c :: q)), (Hr []). rewrite (whole_piece_ne ((sl :: c :: q) ++ x)) by discriminate.
      assert (E := cut_here done [sl] (c :: q) x (sl :: c :: q ++ x) rest (c :: q) 3 (S (length pre)) (length (pre ++ sl :: c :: q))).
      cbn [app] in E |- *. etransitivity; [apply E; [discriminate|cbn [length]; lia|rewrite app_length; cbn [length]; lia]|].
      rewrite <- app_assoc. destruct x; reflexivity. }
    rewrite C. rewrite IH.
    + rewrite <- app_assoc. reflexivity.
    + exact H2.
    + rewrite Hw, <- app_assoc. reflexivity.
    + rewrite walked_app, app_length, Hd, !walked_cons. unfold same. cbn [p_phase p_str Nat.eqb orb app].
      change (walked 3 []) with (@nil ascii). rewrite app_length. cbn [length]. rewrite app_length. cbn [length]. lia.
  - inversion HL as [|x y H1 H2]; subst x y. cbn [vis3 two three app] in *. change (whole_piece []) with (@nil piece). cbn [app].
    rewrite !app_assoc. apply IH; auto. rewrite walked_app, app_length, Hd. change (walked 3 (five k lit c)) with (@nil ascii).
    cbn [length]. lia.
Qed.

Lemma phases : forall l, Forall LowOk l ->
  exists ps, parse_square_bracket (one1 [] l) = Ok ps /\ parse_element ps = three l.
Proof.
  intros l H. exists (two [] l). unfold parse_square_bracket. rewrite str_of_one. cbn [app].
  assert (E := bracket_all l [] [] (vis2 l) [] H eq_refl eq_refl). cbn [length app Nat.add] in E. rewrite E.
  split; [reflexivity|]. unfold parse_element. rewrite str_of_two. cbn [app].
  exact (element_all l [] (vis3 l) [] H eq_refl eq_refl).
Qed.

(** ** Phase 1 *)

Definition IdQ (p : option string) (n : string) : Prop :=
  YangId n /\ match p with None => True | Some p => YangId p end.
Definition keychars (k : option (option string * string)) : list ascii :=
  match k with None => ["."%char] | Some (p, n) => qname p n end.
Definition Shape (i : item) : Prop :=
  match i with
  | Step p n => IdQ p n
  | Pred k q b => Quote q /\ (exists v, Inside q b v) /\ match k with None => True | Some (p, n) => IdQ p n end
  | Nth n => Number n
  end.

Lemma Denotes_shape : forall T m d l s, Denotes T m d l s -> Forall Shape l.
Proof.
  intros T m d l s H. induction H; constructor; auto; cbn [Shape]; unfold IdQ.
  - split; auto. inversion H; auto.
  - split; auto. split; [eauto|]. split; auto. inversion H; auto.
  - split; auto. split; [eauto | exact I].
Qed.

Definition bad (c : ascii) : bool := existsb (Ascii.eqb c) (["="; "["; "]"; "/"; ":"]%char ++ [newline; apos; dquo]).

Lemma letter_ok : forall c, Letter c -> bad c = false.
Proof.
  intros c H. assert (A : forallb (fun c => negb (bad c))
    (chars "abcdefghijklmnopqrstuvwxyzABCDEFGHIJKLMNOPQRSTUVWXYZ0123456789_-.") = true) by (vm_compute; reflexivity).
  rewrite forallb_forall in A. apply A in H. destruct (bad c); [discriminate H | reflexivity].
Qed.

Lemma bad_in : forall c l, (forall d, In d l -> Letter d) -> bad c = true -> ~ In c l.
Proof. intros c l H B I. apply H in I. apply letter_ok in I. congruence. Qed.

Lemma YangId_Ident : forall n, YangId n -> Ident n.
Proof.
  intros n [(c & r & -> & _) H2]. split; [split; [discriminate|]|]; apply bad_in; auto.
Qed.

Lemma YangId_chars : forall n, YangId n -> chars n <> [].
Proof. intros n [(c & r & -> & _) _]. discriminate. Qed.

Lemma qname_chars : forall p n c, IdQ p n -> In c (qname p n) -> Letter c \/ c = ":"%char.
Proof.
  intros [p|] n c [[_ Hn] Hp] H; cbn [qname] in H; [|left; auto].
  apply in_app_or in H as [H|[H|H]]; [left; apply Hp; exact H | right; auto | left; auto].
Qed.

Lemma qname_not : forall p n c, IdQ p n -> bad c = true -> c <> ":"%char -> ~ In c (qname p n).
Proof.
  intros p n c H B N I. destruct (qname_chars p n c H I) as [L|L]; [|congruence].
  apply letter_ok in L. congruence.
Qed.

Lemma qname_ne : forall p n, IdQ p n -> qname p n <> [].
Proof.
  intros [p|] n [Hn Hp]; cbn [qname].
  - destruct (chars p); discriminate.
  - apply YangId_chars. exact Hn.
Qed.

Lemma qname_dot : forall p n, NoDotQ p n -> ~ In "."%char (qname p n).
Proof.
  intros [p|] n [Hn Hp] I; cbn [qname] in I; [|exact (Hn I)].
  apply in_app_or in I as [I|[I|I]]; [exact (Hp I) | discriminate I | exact (Hn I)].
Qed.

Lemma qname_sep : forall p n c, IdQ p n -> NoDotQ p n -> In c (qname p n) -> is_sep c = false.
Proof.
  intros p n c H D I. unfold is_sep. destruct (Ascii.eqb_spec c ".") as [E|E].
  - subst c. exfalso. exact (qname_dot p n D I).
  - destruct (Ascii.eqb_spec c "/") as [E2|E2]; [|reflexivity].
    subst c. exfalso. revert I. apply qname_not; [exact H | reflexivity | discriminate].
Qed.

Fixpoint segs (acc : list ascii) (l : list item) : list segment * list ascii :=
  match l with
  | [] => ([], acc)
  | Step p n :: r => segs (acc ++ sl :: qname p n) r
  | Pred k q b :: r => (Segment (acc ++ lb :: keychars k) q b :: fst (segs [rb] r), snd (segs [rb] r))
  | Nth _ :: r => segs acc r
  end.

Lemma spell_segs : forall l acc, Forall Tame l -> spell (fst (segs acc l)) (snd (segs acc l)) = acc ++ show_items l.
Proof.
  unfold show_items. induction l as [|[p n|k q b|n] l IH]; intros acc H; inversion H as [|x y H1 H2]; subst;
    cbn [segs fst snd spell flat_map show_item].
  - rewrite app_nil_r. reflexivity.
  - rewrite IH by exact H2. rewrite <- app_assoc. reflexivity.
  - rewrite IH by exact H2. unfold literal. cbn [g_text g_quote g_body].
    rewrite <- !app_assoc. cbn [app]. rewrite <- !app_assoc. cbn [app]. rewrite <- !app_assoc.
    unfold keychars. reflexivity.
  - contradiction.
Qed.

Lemma noeq_app : forall a b, NoEq a -> NoEq b -> NoEq (a ++ b).
Proof. intros a b Ha Hb H. apply in_app_or in H as [H|H]; auto. Qed.

Lemma noeq_qname : forall p n, IdQ p n -> NoEq (qname p n).
Proof. intros p n H. apply qname_not; [exact H | reflexivity | discriminate]. Qed.

Lemma noeq_cons : forall c a, c <> "="%char -> NoEq a -> NoEq (c :: a).
Proof. intros c a Hc Ha [H|H]; auto. Qed.

Lemma spelled_segs : forall l acc, Forall Tame l -> Forall Shape l -> NoEq acc ->
  Spelled (fst (segs acc l)) (snd (segs acc l)) /\ Forall PlainEnd (fst (segs acc l)).
Proof.
  induction l as [|[p n|k q b|n] l IH]; intros acc HT HS HA; inversion HT as [|x y T1 T2]; inversion HS as [|x2 y2 S1 S2]; subst;
    cbn [segs fst snd].
  - split; [exact HA | constructor].
  - apply IH; auto. apply noeq_app; [exact HA|]. apply noeq_cons; [discriminate|]. apply noeq_qname. exact S1.
  - cbn [Tame Shape] in *. destruct T1 as [_ T1]. destruct S1 as (Q1 & V1 & K1).
    destruct (IH [rb] T2 S2) as [A B]; [intros [X|[]]; discriminate X|].
    split; [|constructor; [exact T1 | exact B]].
    cbn [Spelled g_text g_quote g_body]. split; [|split; [exact Q1|split; [exact V1|split; [|exact A]]]].
    + apply noeq_app; [exact HA|]. apply noeq_cons; [discriminate|]. destruct k as [[p n]|]; [apply noeq_qname; exact K1|].
      intros [X|[]]; discriminate X.
    + rewrite spell_segs by exact T2. cbn [app hd_error]. destruct Q1 as [-> | ->]; discriminate.
  - contradiction.
Qed.

Inductive Low : item -> it -> Prop :=
| Low_step : forall p n, Low (Step p n) (IS (qname p n))
| Low_pred : forall k q b c, SameLiteral (Segment [] q b) c -> Low (Pred k q b) (IP (keychars k) (q :: b ++ [q]) c).

Lemma pieces_low : forall l acc ps, Forall Tame l -> Pieces (fst (segs acc l)) (snd (segs acc l)) ps ->
  exists its, Forall2 Low l its /\ ps = one1 acc its.
Proof.
  induction l as [|[p n|k q b|n] l IH]; intros acc ps HT HP; inversion HT as [|x y T1 T2]; subst; cbn [segs fst snd] in HP.
  - exists []. split; [constructor|]. inversion HP as [|t N|]; subst; [reflexivity|].
    cbn [one1]. rewrite whole_piece_ne by assumption. reflexivity.
  - destruct (IH _ _ T2 HP) as (its & F & E). exists (IS (qname p n) :: its). split; [constructor; [constructor|exact F]|exact E].
  - inversion HP as [| |g gs t ps' c SL PP]; subst. destruct (IH _ _ T2 PP) as (its & F & ->).
    exists (IP (keychars k) (q :: b ++ [q]) c :: its). split; [constructor; [constructor; exact SL|exact F]|].
    cbn [one1 g_text]. unfold literal. cbn [g_quote g_body app]. unfold same.
    rewrite <- !app_assoc. cbn [app]. reflexivity.
  - contradiction.
Qed.

Lemma low_ok : forall l its, Forall2 Low l its -> Forall Tame l -> Forall Shape l -> Forall LowOk its.
Proof.
  intros l its F. induction F as [|i j l its L F IH]; intros HT HS; constructor;
    inversion HT as [|x y T1 T2]; inversion HS as [|x2 y2 S1 S2]; subst; auto.
  destruct L as [p n|k q b c SL]; cbn [LowOk Tame Shape] in *.
  - split; [apply qname_ne; exact S1|]. split; [apply qname_not; [exact S1|reflexivity|discriminate]|].
    split; [apply qname_not; [exact S1|reflexivity|discriminate]|]. intros c. apply qname_sep; assumption.
  - destruct S1 as (_ & _ & K). destruct k as [[p n]|]; cbn [keychars].
    + split; [apply qname_ne; exact K|]. apply qname_not; [exact K|reflexivity|discriminate].
    + split; [discriminate|]. intros [X|[]]; discriminate X.
Qed.

(** ** Conversion *)

Lemma to_of : forall s, to_s (of_s s) = s.
Proof. apply string_of_list_ascii_of_string. Qed.
Lemma of_to : forall s, of_s (to_s s) = s.
Proof. apply list_ascii_of_string_of_list_ascii. Qed.
Lemma of_app : forall a b, of_s (a ++ b)%string = of_s a ++ of_s b.
Proof. induction a as [|c a IH]; intros b; [reflexivity|]. cbn. f_equal. apply IH. Qed.

Lemma to_s_qname : forall p n, to_s (qname p n) = match p with None => n | Some p => (p ++ ":" ++ n)%string end.
Proof.
  intros [p|] n; cbn [qname]; [|apply to_of]. rewrite <- (to_of (p ++ ":" ++ n)%string). f_equal.
  rewrite of_app. reflexivity.
Qed.

Lemma qname_some : forall p n, of_s (p ++ ":" ++ n)%string = qname (Some p) n.
Proof. intros. rewrite of_app. reflexivity. Qed.

Lemma parse_resolved : forall T m d p n u, NoDup (map fst m) -> NoDup (map e_name T) -> YangId n ->
  Resolved T m d p u -> exists o, parse_prefixed T m (to_s (qname p n)) = Ok (o, n) /\
    (match o with Some _ => o | None => d end) = Some u.
Proof.
  intros T m d p n u Hm HT Hn HR. rewrite to_s_qname. unfold parse_prefixed. pose proof (YangId_Ident n Hn) as Hi.
  destruct HR as [u Hu|p u Hp HP].
  - rewrite Ident_bare by exact Hi. exists None. auto.
  - rewrite Ident_pref; [|exact (proj1 (YangId_Ident p Hp))|exact Hi].
    exists (Some u). split; [|reflexivity]. destruct HP as [HP|(HN & e & He & <- & <-)].
    + rewrite (assoc_In m (Some p) u Hm HP). reflexivity.
    + rewrite (assoc_none m _ HN), (name_to_url_In T e HT He). reflexivity.
Qed.

Lemma compose_reach : forall T to u n, Unambiguous T -> Prefixes T to -> Reach T to u ->
  exists p, iid_compose T u n to = Ok (p ++ ":" ++ n)%string /\ YangId p /\ Prefix T (to_map to) p u.
Proof.
  intros T [m|] u n HU HP HR; cbn [Reach to_map iid_compose Prefixes] in *.
  - destruct HR as (p & HR).
    set (m' := filter (fun kv : option string * string => match fst kv with None => false | _ => true end) m).
    assert (In u (map snd m')) as Hin.
    { apply in_map_iff. exists (Some p, u). split; [reflexivity|]. apply filter_In. auto. }
    destruct (url_to_prefix_some m' u Hin) as (k & Ek). rewrite Ek. apply url_to_prefix_In in Ek.
    apply filter_In in Ek as [Ek Ef]. destruct k as [k|]; [|discriminate Ef].
    exists k. split; [reflexivity|]. split; [apply (HP k u Ek) | left; exact Ek].
  - apply in_map_iff in HR as (e & <- & He). rewrite (convert_url_name T e HU He). cbn [bind].
    exists (e_name e). split; [reflexivity|]. split; [apply HP; exact He|]. right. split; [intros []|]. eauto.
Qed.

Lemma compose_refused : forall T m u n, ~ Reach T (Some m) u -> iid_compose T u n (Some m) = Err ConfigError.
Proof.
  intros T m u n H. cbn [iid_compose].
  destruct (url_to_prefix _ u) as [[p|]|] eqn:E; try reflexivity. exfalso. apply H.
  apply url_to_prefix_In in E. apply filter_In in E as [E _]. exists p. exact E.
Qed.

Lemma punct_qname : forall p n, IdQ p n -> NoDotQ p n -> is_punct (qname p n) = false.
Proof.
  intros p n H D. unfold is_punct. destruct (qname p n) as [|c [|c' r]] eqn:E; try reflexivity.
  assert (I : In c (qname p n)) by (rewrite E; left; reflexivity).
  destruct (Ascii.eqb_spec c "[") as [->|_]; [exfalso; revert I; apply qname_not; [exact H|reflexivity|discriminate]|].
  destruct (Ascii.eqb_spec c "]") as [->|_]; [exfalso; revert I; apply qname_not; [exact H|reflexivity|discriminate]|].
  destruct (Ascii.eqb_spec c "=") as [->|_]; [exfalso; revert I; apply qname_not; [exact H|reflexivity|discriminate]|].
  destruct (Ascii.eqb_spec c ".") as [->|_]; [exfalso; exact (qname_dot p n D I)|]. reflexivity.
Qed.

(** One step at a time. *)
Lemma convert_is : forall T m to d q r, convert_pieces T m to d (three (IS q :: r)) =
  let! (u, id) := parse_prefixed T m (to_s q) in
  match (match u with Some _ => u | None => d end) with
  | None => Err ConfigError
  | Some url =>
      let! c := iid_compose T url id to in
      let! r' := convert_pieces T m to (Some url) (three r) in
      Ok (same 0 [sl] :: (q, 3, of_s c) :: r')
  end.
Proof.
  intros. cbn [three]. unfold same at 1 2. cbn [convert_pieces p_phase p_str Nat.leb Nat.eqb].
  destruct (parse_prefixed T m (to_s q)) as [[u id]|e]; [|reflexivity]. cbn [bind].
  destruct (match u with Some _ => u | None => d end) as [url|]; [|reflexivity].
  destruct (iid_compose T url id to) as [c|e]; [|reflexivity]. cbn [bind].
  destruct (convert_pieces T m to (Some url) (three r)) as [r'|e]; reflexivity.
Qed.

Lemma convert_ip : forall T m to d k lit c r, convert_pieces T m to d (three (IP k lit c :: r)) =
  if is_punct k then
    let! r' := convert_pieces T m to d (three r) in Ok (five k lit c ++ r')
  else
    let! (u, id) := parse_prefixed T m (to_s k) in
    match (match u with Some _ => u | None => d end) with
    | None => Err ConfigError
    | Some url =>
        let! cc := iid_compose T url id to in
        let! r' := convert_pieces T m to d (three r) in
        Ok ([same 2 [lb]; (k, 2, of_s cc); same 2 [eqc]; (lit, 1, c); same 2 [rb]] ++ r')
    end.
Proof.
  intros. cbn [three]. unfold five, same. cbn [app convert_pieces p_phase p_str Nat.leb Nat.eqb is_punct].
  change (is_punct [lb]) with true. change (is_punct [eqc]) with true. change (is_punct [rb]) with true. cbv iota.
  destruct (is_punct k).
  - destruct (convert_pieces T m to d (three r)) as [r'|e]; reflexivity.
  - destruct (parse_prefixed T m (to_s k)) as [[u id]|e]; [|reflexivity]. cbn [bind].
    destruct (match u with Some _ => u | None => d end) as [url|]; [|reflexivity].
    destruct (iid_compose T url id to) as [cc|e]; [|reflexivity]. cbn [bind].
    destruct (convert_pieces T m to d (three r)) as [r'|e]; reflexivity.
Qed.

Lemma convert_ok : forall T m to, Unambiguous T -> NoDup (map fst m) -> Prefixes T to ->
  forall d l s, Denotes T m d l s -> forall its, Forall2 Low l its -> Forall Tame l ->
  (forall u, In u (urls s) -> Reach T to u) ->
  exists ps l', convert_pieces T m to d (three its) = Ok ps /\ flat_map p_conv ps = show_items l' /\
    Denotes T (to_map to) d l' s /\ Forall Canon l'.
Proof.
  intros T m to HU Hm HP d l s HD. pose proof HU as (HN & _ & _).
  assert (IdR : forall d p u n, Resolved T m d p u -> YangId n -> IdQ p n).
  { intros d0 p u n HR Hn. split; [exact Hn|]. inversion HR; auto. }
  assert (V : forall q b v c, Inside q b v -> SameLiteral (Segment [] q b) c -> exists b', c = apos :: b' ++ [apos] /\ Inside apos b' v).
  { intros q b v c HI (b' & v' & -> & HI' & HA). cbn [g_quote g_body] in HI'. exists b'. split; [reflexivity|].
    assert (v' = v) as ->; [|exact HA].
    clear HA. revert v' HI'. induction HI as [|ch b v Hc HI IH|b v HI IH]; intros v' HI'.
    - inversion HI'. reflexivity.
    - inversion HI' as [|ch' b2 v2 Hc' HI2|b2 v2 HI2]; subst; [f_equal; auto | congruence].
    - inversion HI' as [|ch' b2 v2 Hc' HI2|b2 v2 HI2]; subst; [congruence | f_equal; auto]. }
  induction HD as [d|d p n u r s HR Hn HD IH|d p n u q b v r s HR Hn HQ HI HD IH|d q b v r s HQ HI HD IH|d n r s Hn HD IH];
    intros its F HT HRe; inversion F as [|i j l2 its2 L F2]; subst; inversion HT as [|x y T1 T2]; subst.
  - exists [], []. split; [reflexivity|]. split; [reflexivity | split; constructor].
  - inversion L; subst. rewrite convert_is.
    destruct (parse_resolved T m d p n u Hm HN Hn HR) as (o & -> & Ho). cbn [bind]. rewrite Ho.
    destruct (compose_reach T to u n HU HP) as (p' & -> & Hp' & HP'); [apply HRe; left; reflexivity|]. cbn [bind].
    destruct (IH its2 F2 T2) as (ps & l' & -> & Ec & HD' & HC'); [intros; apply HRe; right; assumption|]. cbn [bind].
    eexists. exists (Step (Some p') n :: l'). split; [reflexivity|]. split.
    + cbn [flat_map p_conv same app]. rewrite Ec, qname_some. reflexivity.
    + split; [constructor; [constructor; assumption | exact Hn | exact HD'] | constructor; [discriminate | exact HC']].
  - inversion L as [|k0 q0 b0 c0 SL]; subst. rewrite convert_ip. cbn [keychars]. cbn [Tame] in T1. destruct T1 as [T1 _].
    rewrite punct_qname; [|eapply IdR; eassumption|exact T1].
    destruct (parse_resolved T m (Some d) p n u Hm HN Hn HR) as (o & -> & Ho). cbn [bind]. rewrite Ho.
    destruct (compose_reach T to u n HU HP) as (p' & -> & Hp' & HP'); [apply HRe; left; reflexivity|]. cbn [bind].
    destruct (IH its2 F2 T2) as (ps & l' & -> & Ec & HD' & HC'); [intros; apply HRe; right; assumption|]. cbn [bind].
    destruct (V q b v c0 HI SL) as (b' & -> & HA).
    eexists. exists (Pred (Some (Some p', n)) apos b' :: l'). split; [reflexivity|]. split.
    + cbn [flat_map p_conv same app]. rewrite Ec, qname_some. unfold show_items. cbn [flat_map show_item].
      rewrite <- !app_assoc. cbn [app]. rewrite <- !app_assoc. cbn [app]. rewrite <- !app_assoc. reflexivity.
    + split; [constructor; [constructor; assumption | exact Hn | left; reflexivity | exact HA | exact HD']|].
      constructor; [split; [discriminate | reflexivity] | exact HC'].
  - inversion L as [|k0 q0 b0 c0 SL]; subst. rewrite convert_ip. cbn [keychars is_punct]. cbn [Ascii.eqb Bool.eqb orb].
    destruct (IH its2 F2 T2) as (ps & l' & -> & Ec & HD' & HC'); [intros; apply HRe; assumption|]. cbn [bind].
    destruct (V q b v c0 HI SL) as (b' & -> & HA).
    eexists. exists (Pred None apos b' :: l'). split; [reflexivity|]. split.
    + cbn [flat_map p_conv same five app]. rewrite Ec. unfold show_items. cbn [flat_map show_item app].
      rewrite <- !app_assoc. reflexivity.
    + split; [constructor; [left; reflexivity | exact HA | exact HD'] | constructor; [split; [exact I | reflexivity] | exact HC']].
  - contradiction.
Qed.

Lemma convert_refused : forall T m (m' : nsmap), Unambiguous T -> NoDup (map fst m) ->
  forall d l s, Denotes T m d l s -> forall its, Forall2 Low l its -> Forall Tame l ->
  (forall p u, In (Some p, u) m' -> YangId p) ->
  (exists u, In u (urls s) /\ ~ Reach T (Some m') u) ->
  convert_pieces T m (Some m') d (three its) = Err ConfigError.
Proof.
  intros T m m' HU Hm d l s HD. pose proof HU as (HN & _ & _).
  assert (IdR : forall d p u n, Resolved T m d p u -> YangId n -> IdQ p n).
  { intros d0 p u n HR Hn. split; [exact Hn|]. inversion HR; auto. }
  assert (Dec : forall u, Reach T (Some m') u \/ ~ Reach T (Some m') u).
  { intros u. cbn [Reach]. induction m' as [|[[p|] w] r IH].
    - right. intros (p & []).
    - destruct (String.eqb_spec w u) as [->|N]; [left; exists p; left; reflexivity|].
      destruct IH as [(k & IH)|IH]; [left; exists k; right; exact IH|].
      right. intros (k & [X|X]); [injection X as _ X; congruence | apply IH; exists k; exact X].
    - destruct IH as [(k & IH)|IH]; [left; exists k; right; exact IH|].
      right. intros (k & [X|X]); [discriminate X | apply IH; exists k; exact X]. }
  induction HD as [d|d p n u r s HR Hn HD IH|d p n u q b v r s HR Hn HQ HI HD IH|d q b v r s HQ HI HD IH|d n r s Hn HD IH];
    intros its F HT HY (w & Hw & Hnr); inversion F as [|i j l2 its2 L F2]; subst; inversion HT as [|x y T1 T2]; subst.
  - contradiction.
  - inversion L; subst. rewrite convert_is.
    destruct (parse_resolved T m d p n u Hm HN Hn HR) as (o & -> & Ho). cbn [bind]. rewrite Ho.
    destruct (Dec u) as [Ru|Ru]; [|rewrite compose_refused by exact Ru; reflexivity].
    destruct (compose_reach T (Some m') u n HU HY Ru) as (p' & -> & _). cbn [bind].
    rewrite IH; auto. exists w. split; [|exact Hnr]. destruct Hw as [->|Hw]; [contradiction|exact Hw].
  - inversion L as [|k0 q0 b0 c0 SL]; subst. rewrite convert_ip. cbn [keychars]. cbn [Tame] in T1. destruct T1 as [T1 _].
    rewrite punct_qname; [|eapply IdR; eassumption|exact T1].
    destruct (parse_resolved T m (Some d) p n u Hm HN Hn HR) as (o & -> & Ho). cbn [bind]. rewrite Ho.
    destruct (Dec u) as [Ru|Ru]; [|rewrite compose_refused by exact Ru; reflexivity].
    destruct (compose_reach T (Some m') u n HU HY Ru) as (p' & -> & _). cbn [bind].
    rewrite IH; auto. exists w. split; [|exact Hnr]. destruct Hw as [->|Hw]; [contradiction|exact Hw].
  - inversion L as [|k0 q0 b0 c0 SL]; subst. rewrite convert_ip. cbn [keychars is_punct]. cbn [Ascii.eqb Bool.eqb orb].
    rewrite IH; auto. exists w. split; auto.
  - contradiction.
Qed.

Lemma parsed : forall T m to d l s, Denotes T m d l s -> Forall Tame l -> l <> [] ->
  exists its, Forall2 Low l its /\ iid_pieces T m to (to_s (show_items l)) = convert_pieces T m to None (three its).
Proof.
  intros T m to d l s HD HT HN. pose proof (Denotes_shape _ _ _ _ _ HD) as HS.
  destruct (spelled_segs l [] HT HS) as [SP PE]; [intros []|].
  assert (Hsp := spell_segs l [] HT). cbn [app] in Hsp.
  destruct (quotes_found _ _ SP PE) as (ps & Eps & HP).
  { rewrite Hsp. unfold show_items. destruct l as [|[p n|k q b|n] l]; [congruence|discriminate|discriminate|discriminate]. }
  rewrite Hsp in Eps. destruct (pieces_low l [] ps HT HP) as (its & F & ->). exists its. split; [exact F|].
  unfold iid_pieces. rewrite of_to, Eps. cbn [bind].
  destruct (phases its (low_ok l its F HT HS)) as (ps2 & -> & E3). cbn [bind]. rewrite E3. reflexivity.
Qed.

Theorem iid_kept : forall T w t m to l s, Unambiguous T -> In w (map e_url T) -> Name t -> Nsmap m -> Prefixes T to ->
  Denotes T m None l s -> Forall Tame l -> l <> [] -> (forall u, In u (urls s) -> Reach T to u) ->
  exists l', iid_convert T (RNode (etree w t) m (Some (to_s (show_items l)))) to = Ok (to_s (show_items l')) /\
    Denotes T (to_map to) None l' s /\ Forall Canon l'.
Proof.
  intros T w t m to l s HU Hw Ht [Hm _] HP HD HT HN HR. unfold iid_convert.
  rewrite node_url_ok by assumption. cbn [bind r_text r_nsmap].
  destruct (parsed T m to None l s HD HT HN) as (its & F & ->).
  destruct (convert_ok T m to HU Hm HP None l s HD its F HT HR) as (ps & l' & -> & Ec & HD' & HC'). cbn [bind].
  exists l'. rewrite Ec. split; [reflexivity | split; assumption].
Qed.

Theorem iid_refused : forall T w t m m' l s, Unambiguous T -> In w (map e_url T) -> Name t -> Nsmap m -> Prefixes T (Some m') ->
  Denotes T m None l s -> Forall Tame l -> l <> [] -> (exists u, In u (urls s) /\ ~ Reach T (Some m') u) ->
  iid_convert T (RNode (etree w t) m (Some (to_s (show_items l)))) (Some m') = Err ConfigError.
Proof.
  intros T w t m m' l s HU Hw Ht [Hm _] HP HD HT HN HR. unfold iid_convert.
  rewrite node_url_ok by assumption. cbn [bind r_text r_nsmap].
  destruct (parsed T m (Some m') None l s HD HT HN) as (its & F & ->).
  rewrite (convert_refused T m m' HU Hm None l s HD its F HT HP HR). reflexivity.
Qed.

(** ** One reading *)

Definition good (c : ascii) : bool := negb (bad c) || Ascii.eqb c ":".
Definition Ends (l : list ascii) : Prop := match l with [] => True | c :: _ => good c = false end.

Lemma good_prefix : forall a b x y, (forall c, In c a -> good c = true) -> (forall c, In c b -> good c = true) ->
  Ends x -> Ends y -> a ++ x = b ++ y -> a = b /\ x = y.
Proof.
  induction a as [|c a IH]; intros [|c' b] x y Ha Hb Hx Hy E; cbn [app] in E.
  - auto.
  - exfalso. subst x. cbn [Ends] in Hx. rewrite (Hb c' (or_introl eq_refl)) in Hx. discriminate Hx.
  - exfalso. subst y. cbn [Ends] in Hy. rewrite (Ha c (or_introl eq_refl)) in Hy. discriminate Hy.
  - injection E as -> E. destruct (IH b x y) as [-> ->]; auto; intros; [apply Ha | apply Hb]; right; assumption.
Qed.

Lemma good_letter : forall c, Letter c -> good c = true.
Proof. intros c H. unfold good. rewrite (letter_ok c H). reflexivity. Qed.

Lemma good_qname : forall p n c, IdQ p n -> In c (qname p n) -> good c = true.
Proof. intros p n c H I. destruct (qname_chars p n c H I) as [L | ->]; [apply good_letter; exact L | reflexivity]. Qed.

Lemma digit_letter : forall c, Digit c -> Letter c.
Proof.
  intros c H. assert (A : forallb (fun c => existsb (Ascii.eqb c)
    (chars "abcdefghijklmnopqrstuvwxyzABCDEFGHIJKLMNOPQRSTUVWXYZ0123456789_-.")) (chars "0123456789") = true) by (vm_compute; reflexivity).
  rewrite forallb_forall in A. apply A in H. apply existsb_exists in H as (d & Hd & E).
  apply Ascii.eqb_eq in E. subst d. exact Hd.
Qed.

Lemma chars_inj : forall a b, chars a = chars b -> a = b.
Proof. intros a b H. apply (f_equal string_of_list_ascii) in H. unfold chars in H. rewrite !string_of_list_ascii_of_string in H. exact H. Qed.

Lemma qname_inj : forall p n p' n', IdQ p n -> IdQ p' n' -> qname p n = qname p' n' -> p = p' /\ n = n'.
Proof.
  assert (C : forall n, YangId n -> ~ In ":"%char (chars n)).
  { intros n [_ H]. apply bad_in; [exact H | reflexivity]. }
  assert (S : forall a b x y : list ascii, ~ In ":"%char a -> ~ In ":"%char b -> a ++ ":"%char :: x = b ++ ":"%char :: y -> a = b /\ x = y).
  { induction a as [|c a IH]; intros [|c' b] x y Ha Hb E; cbn [app] in E.
    - injection E as E. auto.
    - exfalso. injection E as E _. apply Hb. left. auto.
    - exfalso. injection E as E _. apply Ha. left. auto.
    - injection E as -> E. destruct (IH b x y) as [-> ->]; auto; intro; [apply Ha | apply Hb]; right; assumption. }
  intros [p|] n [p'|] n' [Hn Hp] [Hn' Hp'] E; cbn [qname] in E.
  - apply S in E; [|apply C; exact Hp|apply C; exact Hp']. destruct E as [E1 E2].
    apply chars_inj in E1. apply chars_inj in E2. subst. auto.
  - exfalso. apply (C n' Hn'). rewrite <- E. apply in_or_app. right. left. reflexivity.
  - exfalso. apply (C n Hn). rewrite E. apply in_or_app. right. left. reflexivity.
  - apply chars_inj in E. subst. auto.
Qed.

Lemma inside_end : forall q b v, Inside q b v -> q <> rb -> forall b' v' x y, Inside q b' v' ->
  b ++ q :: rb :: x = b' ++ q :: rb :: y -> b = b' /\ x = y.
Proof.
  intros q b v H N. induction H as [|c b v Hc H IH|b v H IH]; intros b' v' x y H' E.
  - inversion H' as [|c' b2 v2 Hc' H2|b2 v2 H2]; subst; cbn [app] in E.
    + injection E as E. auto.
    + injection E as E _. congruence.
    + injection E as E _. congruence.
  - inversion H' as [|c' b2 v2 Hc' H2|b2 v2 H2]; subst; cbn [app] in E.
    + injection E as E _. congruence.
    + injection E as -> E. destruct (IH b2 v2 x y H2 E) as [-> ->]. auto.
    + injection E as E _. congruence.
  - inversion H' as [|c' b2 v2 Hc' H2|b2 v2 H2]; subst; cbn [app] in E.
    + injection E as E _. congruence.
    + injection E as E _. congruence.
    + injection E as E. destruct (IH b2 v2 x y H2 E) as [-> ->]. auto.
Qed.

Lemma show_ends : forall l, Ends (show_items l).
Proof. intros [|[p n|k q b|n] l]; reflexivity || exact I. Qed.

Definition KeyQ (k : option (option string * string)) : Prop := match k with None => True | Some (p, n) => IdQ p n end.

Lemma good_key : forall k c, KeyQ k -> In c (keychars k) -> good c = true.
Proof.
  intros [[p n]|] c H I; cbn [keychars] in I; [exact (good_qname p n c H I)|].
  destruct I as [<-|[]]. reflexivity.
Qed.

Lemma alpha_not_dot : forall n, YangId n -> chars n <> ["."%char].
Proof.
  intros n [(c & r & -> & Ha) _] E. injection E as -> _. revert Ha. unfold Alpha.
  assert (A : existsb (Ascii.eqb ".") (chars "abcdefghijklmnopqrstuvwxyzABCDEFGHIJKLMNOPQRSTUVWXYZ_") = false) by reflexivity.
  intros I. assert (X := proj2 (existsb_exists (Ascii.eqb ".") _) (ex_intro _ _ (conj I (Ascii.eqb_refl ".")))). congruence.
Qed.

Lemma key_inj : forall k k', KeyQ k -> KeyQ k' -> keychars k = keychars k' -> k = k'.
Proof.
  assert (Q : forall p n, IdQ p n -> qname p n <> ["."%char]).
  { intros [p|] n [Hn Hp] E; cbn [qname] in E; [|exact (alpha_not_dot n Hn E)].
    destruct (chars p) as [|c [|c' r]]; discriminate E. }
  intros [[p n]|] [[p' n']|] H H' E; cbn [keychars] in E; auto.
  - destruct (qname_inj p n p' n' H H' E) as [-> ->]. reflexivity.
  - exfalso. exact (Q p n H E).
  - exfalso. exact (Q p' n' H' (eq_sym E)).
Qed.

Lemma show_pred : forall k q b l, show_items (Pred k q b :: l) = lb :: keychars k ++ eqc :: q :: b ++ q :: rb :: show_items l.
Proof.
  intros. unfold show_items. cbn [flat_map show_item app]. f_equal. unfold keychars. rewrite <- !app_assoc. f_equal.
  cbn [app]. rewrite <- app_assoc. reflexivity.
Qed.

Lemma show_nth : forall n l, show_items (Nth n :: l) = lb :: chars n ++ rb :: show_items l.
Proof. intros. unfold show_items. cbn [flat_map show_item app]. rewrite <- app_assoc. reflexivity. Qed.

Lemma show_step : forall p n l, show_items (Step p n :: l) = sl :: qname p n ++ show_items l.
Proof. reflexivity. Qed.

Theorem one_reading : forall l l', Forall Shape l -> Forall Shape l' -> show_items l = show_items l' -> l = l'.
Proof.
  assert (Num : forall n c, Number n -> In c (chars n) -> good c = true).
  { intros n c [_ H] I. apply good_letter, digit_letter, H, I. }
  induction l as [|i l IH]; intros [|i' l'] H H' E.
  - reflexivity.
  - destruct i'; discriminate E.
  - destruct i; discriminate E.
  - inversion H as [|x y H1 H2]; inversion H' as [|x' y' H1' H2']; subst.
    destruct i as [p n|k q b|n], i' as [p' n'|k' q' b'|n']; rewrite ?show_pred, ?show_nth, ?show_step in E; try discriminate E.
    + injection E as E.
      destruct (good_prefix _ _ _ _ (fun c => good_qname p n c H1) (fun c => good_qname p' n' c H1') (show_ends l) (show_ends l') E) as [E1 E2].
      destruct (qname_inj p n p' n' H1 H1' E1) as [-> ->]. rewrite (IH l' H2 H2' E2). reflexivity.
    + injection E as E. destruct H1 as (Q1 & (v & V) & K1). destruct H1' as (Q1' & (v' & V') & K1').
      apply good_prefix in E; [|intro c; exact (good_key k c K1)|intro c; exact (good_key k' c K1')|reflexivity|reflexivity].
      destruct E as [E1 E2]. rewrite (key_inj k k' K1 K1' E1). injection E2 as -> E2.
      destruct (inside_end q' b v V) with (b' := b') (v' := v') (x := show_items l) (y := show_items l') as [-> E3]; auto;
        [destruct Q1' as [-> | ->]; discriminate|].
      rewrite (IH l' H2 H2' E3). reflexivity.
    + exfalso. injection E as E. destruct H1 as (_ & _ & K1).
      apply good_prefix in E; [|intro c; exact (good_key k c K1)|intro c; exact (Num n' c H1')|reflexivity|reflexivity].
      destruct E as [_ E]. discriminate E.
    + exfalso. injection E as E. destruct H1' as (_ & _ & K1).
      apply good_prefix in E; [|intro c; exact (Num n c H1)|intro c; exact (good_key k' c K1)|reflexivity|reflexivity].
      destruct E as [_ E]. discriminate E.
    + injection E as E. apply good_prefix in E; [|intro c; exact (Num n c H1)|intro c; exact (Num n' c H1')|reflexivity|reflexivity].
      destruct E as [E1 E2]. injection E2 as E2. apply chars_inj in E1. subst n'. rewrite (IH l' H2 H2' E2). reflexivity.
Qed.

Lemma inside_fun : forall q b v, Inside q b v -> forall v', Inside q b v' -> v = v'.
Proof.
  intros q b v HI. induction HI as [|ch b v Hc HI IH|b v HI IH]; intros v' HI'.
  - inversion HI'. reflexivity.
  - inversion HI' as [|ch' b2 v2 Hc' HI2|b2 v2 HI2]; subst; [f_equal; auto | congruence].
  - inversion HI' as [|ch' b2 v2 Hc' HI2|b2 v2 HI2]; subst; [congruence | f_equal; auto].
Qed.

(** The text denotes one path. *)
Theorem denotes_fun : forall T m, Unambiguous T -> Nsmap m -> forall d l s, Denotes T m d l s ->
  forall s', Denotes T m d l s' -> s = s'.
Proof.
  intros T m (HN & _) [Hm _].
  assert (R : forall d p u u', Resolved T m d p u -> Resolved T m d p u' -> u = u').
  { intros d p u u' H H'. destruct H as [u H|p u Y H].
    - inversion H' as [w H2|]; subst. congruence.
    - inversion H' as [|p0 w Y2 H2]; subst. destruct H as [H|(H & e & He & E1 & E2)], H2 as [H2|(H2 & e' & He' & E1' & E2')].
      + assert (X := assoc_In m _ _ Hm H). rewrite (assoc_In m _ _ Hm H2) in X. congruence.
      + exfalso. apply H2. apply in_map_iff. exists (Some p, u). auto.
      + exfalso. apply H. apply in_map_iff. exists (Some p, u'). auto.
      + assert (e = e') as <- by (apply (NoDup_map_inj _ _ e_name T); auto; congruence). congruence. }
  intros d l s H. induction H as [d|d p n u r s HR Hn HD IH|d p n u q b v r s HR Hn HQ HI HD IH|d q b v r s HQ HI HD IH|d n r s Hn HD IH];
    intros s' H'; inversion H'; subst.
  - reflexivity.
  - match goal with X : Resolved _ _ _ p ?w |- _ => assert (u = w) by (eapply R; eauto); subst w end. f_equal. auto.
  - match goal with X : Resolved _ _ _ p ?w |- _ => assert (u = w) by (eapply R; eauto); subst w end.
    match goal with X : Inside _ _ ?w |- _ => assert (v = w) by (eapply inside_fun; eauto); subst w end. f_equal. auto.
  - match goal with X : Inside _ _ ?w |- _ => assert (v = w) by (eapply inside_fun; eauto); subst w end. f_equal. auto.
  - f_equal. auto.
Qed.

(** ** Comparison *)

Lemma inside_inj : forall q b v, Inside q b v -> forall b', Inside q b' v -> b = b'.
Proof.
  intros q b v HI. induction HI as [|ch b v Hc HI IH|b v HI IH]; intros b' HI'.
  - inversion HI'. reflexivity.
  - inversion HI' as [|ch' b2 v2 Hc' HI2|b2 v2 HI2]; subst; [f_equal; auto | congruence].
  - inversion HI' as [|ch' b2 v2 Hc' HI2|b2 v2 HI2]; subst; [congruence | do 2 f_equal; auto].
Qed.

Lemma canon_fun : forall T, Unambiguous T -> forall d l s, Denotes T [] d l s -> Forall Canon l ->
  forall d' l', Denotes T [] d' l' s -> Forall Canon l' -> l = l'.
Proof.
  intros T (_ & HU & _).
  assert (P : forall p p' u, Prefix T [] p u -> Prefix T [] p' u -> p = p').
  { intros p p' u [[]|(_ & e & He & <- & E)] [[]|(_ & e' & He' & <- & E')].
    assert (e = e') as -> by (apply (NoDup_map_inj _ _ e_url T); auto; congruence). reflexivity. }
  assert (R : forall d d' p p' u, p <> None -> p' <> None -> Resolved T [] d p u -> Resolved T [] d' p' u -> p = p').
  { intros d d' p p' u N N' H H'. destruct H as [u H|p u Y H]; [congruence|]. inversion H' as [w H2|p0 w Y2 H2]; subst; [congruence|].
    f_equal. eapply P; eauto. }
  intros d l s H. induction H as [d|d p n u r s HR Hn HD IH|d p n u q b v r s HR Hn HQ HI HD IH|d q b v r s HQ HI HD IH|d n r s Hn HD IH];
    intros HC d' l' H' HC'; inversion HC as [|x y C1 C2]; subst;
    inversion H' as [|d2 p2 n2 u2 r2 s2 R2 N2 D2|d2 p2 n2 u2 q2 b2 v2 r2 s2 R2 N2 Q2 I2 D2|d2 q2 b2 v2 r2 s2 Q2 I2 D2|d2 n2 r2 s2 N2 D2];
    subst; inversion HC' as [|x' y' C1' C2']; subst; cbn [Canon] in *.
  - reflexivity.
  - rewrite (R d d' p p2 u C1 C1' HR R2). rewrite (IH C2 _ _ D2 C2'). reflexivity.
  - destruct C1 as [C1 ->], C1' as [C1' ->]. rewrite (R _ _ p p2 u C1 C1' HR R2). rewrite (inside_inj _ _ _ HI _ I2).
    rewrite (IH C2 _ _ D2 C2'). reflexivity.
  - destruct C1 as [C1 ->], C1' as [C1' ->]. rewrite (inside_inj _ _ _ HI _ I2).
    rewrite (IH C2 _ _ D2 C2'). reflexivity.
  - contradiction.
Qed.

Theorem iid_same : forall T w t m1 m2 l1 l2 s1 s2, Unambiguous T -> Prefixes T None -> In w (map e_url T) -> Name t ->
  Nsmap m1 -> Nsmap m2 -> Denotes T m1 None l1 s1 -> Denotes T m2 None l2 s2 -> Forall Tame l1 -> Forall Tame l2 ->
  l1 <> [] -> l2 <> [] -> (forall u, In u (urls s1 ++ urls s2) -> In u (map e_url T)) ->
  exists b, ref_same T DInstance (RNode (etree w t) m1 (Some (to_s (show_items l1))))
                                 (RNode (etree w t) m2 (Some (to_s (show_items l2)))) = Ok b /\ (b = true <-> s1 = s2).
Proof.
  intros T w t m1 m2 l1 l2 s1 s2 HU HP Hw Ht Hm1 Hm2 D1 D2 T1 T2 N1 N2 HR.
  destruct (iid_kept T w t m1 None l1 s1 HU Hw Ht Hm1 HP D1 T1 N1) as (l1' & E1 & D1' & C1).
  { intros u Hu. apply HR, in_or_app. auto. }
  destruct (iid_kept T w t m2 None l2 s2 HU Hw Ht Hm2 HP D2 T2 N2) as (l2' & E2 & D2' & C2).
  { intros u Hu. apply HR, in_or_app. auto. }
  unfold ref_same, ref_text. cbn [r_text]. rewrite E1, E2. cbn [bind]. cbn [to_map] in *.
  eexists. split; [reflexivity|]. rewrite ostr_eqb_eq. split.
  - intros E. injection E as E. apply (f_equal of_s) in E. rewrite !of_to in E.
    apply one_reading in E; [|eapply Denotes_shape; eassumption|eapply Denotes_shape; eassumption]. subst l2'.
    apply (denotes_fun T [] HU) with (d := None) (l := l1'); [|exact D1'|exact D2'].
    split; [constructor | intros p u []].
  - intros <-. rewrite (canon_fun T HU None l1' s1 D1' C1 None l2' D2' C2). reflexivity.
Qed.

Theorem iid_merge : forall T w t m y l s, Unambiguous T -> In w (map e_url T) -> Name t -> Nsmap m -> Prefixes T (Some (r_nsmap y)) ->
  Denotes T m None l s -> Forall Tame l -> l <> [] ->
  ((forall u, In u (urls s) -> Reach T (Some (r_nsmap y)) u) ->
    exists l', ref_merge T DInstance (RNode (etree w t) m (Some (to_s (show_items l)))) y = Ok (Some (to_s (show_items l'))) /\
      Denotes T (r_nsmap y) None l' s) /\
  ((exists u, In u (urls s) /\ ~ Reach T (Some (r_nsmap y)) u) ->
    ref_merge T DInstance (RNode (etree w t) m (Some (to_s (show_items l)))) y = Err ConfigError).
Proof.
  intros T w t m y l s HU Hw Ht Hm HP HD HT HN. unfold ref_merge. cbn [r_text]. split; intro HR.
  - destruct (iid_kept T w t m (Some (r_nsmap y)) l s HU Hw Ht Hm HP HD HT HN HR) as (l' & -> & D & _). exists l'. split; [reflexivity | exact D].
  - rewrite (iid_refused T w t m (r_nsmap y) l s HU Hw Ht Hm HP HD HT HN HR). reflexivity.
Qed.

(** Example data for the properties of the compiler helpers. *)
From Coq Require Import String Ascii List Bool Arith Lia.
From Verif Require Import Base CompileM CompileSpec CompileP.
Import ListNotations.
Open Scope string_scope.
Open Scope list_scope.
Open Scope nat_scope.

Definition ex_mods : list (string * string) :=
  [("a", "2018-11-02"); ("b", "2020-01-01"); ("a", "2019-02-01"); ("a", "2019-01-31")].

Lemma ex_mods_dates : forall r, In ("a", r) ex_mods -> exists d, Valid d /\ r = written d.
Proof.
  intros r [H|[H|[H|[H|[]]]]]; injection H; intros; subst; try discriminate.
  - exists (Date 2018 11 2). split; [unfold Valid; cbn [yr mo dy]; lia | reflexivity].
  - exists (Date 2019 2 1). split; [unfold Valid; cbn [yr mo dy]; lia | reflexivity].
  - exists (Date 2019 1 31). split; [unfold Valid; cbn [yr mo dy]; lia | reflexivity].
Qed.

(** Module t has the root identity animal and imports nothing; u imports t and derives dog,
    cat and, from dog, puppy. *)
Definition ex_t : mstmt := MStmt true "t" "tp" [("tp", "t")] [Identity "animal" []].
Definition ex_u : mstmt := MStmt true "u" "up" [("up", "u"); ("x", "t")]
  [Identity "dog" ["x:animal"]; Identity "cat" ["x:animal"; "up:pet"]; Identity "puppy" ["up:dog"]; Identity "pet" []].

Lemma ex_named : forall l, (l = [ex_t; ex_u] \/ l = [ex_u; ex_t]) -> Named l.
Proof.
  assert (W : forall s, forallb (fun c => negb (Ascii.eqb c ":")) (list_ascii_of_string s) = true -> Without ":" s).
  { induction s as [|c s IH]; intros H; [exact I|]. cbn [list_ascii_of_string forallb] in H. apply andb_prop in H as [H1 H2].
    split; [|auto]. intros ->. rewrite Ascii.eqb_refl in H1. discriminate. }
  intros l [-> | ->]; (split; [|split; [|split]]).
  - constructor; [|constructor; [intros []|constructor]]. intros [H|[]]. discriminate.
  - intros m [<-|[<-|[]]]; apply W; reflexivity.
  - intros m p mn [<-|[<-|[]]] H; [destruct H as [H|[]] | destruct H as [H|[H|[]]]]; injection H as <- <-; apply W; reflexivity.
  - intros m i H. cbn in H. repeat destruct H as [H|H]; try contradiction; injection H as <- <-; apply W; reflexivity.
  - constructor; [|constructor; [intros []|constructor]]. intros [H|[]]. discriminate.
  - intros m [<-|[<-|[]]]; apply W; reflexivity.
  - intros m p mn [<-|[<-|[]]] H; [destruct H as [H|[H|[]]] | destruct H as [H|[]]]; injection H as <- <-; apply W; reflexivity.
  - intros m i H. cbn in H. repeat destruct H as [H|H]; try contradiction; injection H as <- <-; apply W; reflexivity.
Qed.

Lemma ex_means_x : forall n, Without ":" n -> Means ex_u (("x" ++ ":" ++ n)%string) "t" n.
Proof. intros. constructor; auto. cbn. repeat split; discriminate. Qed.

Lemma ex_means_own : forall m n, Without ":" n -> Means m n (ms_name m) n.
Proof. intros. apply Means_own. auto. Qed.

Lemma ex_listed : let ms := [ex_t; ex_u] in
  Named ms /\ all_ids ms = [(ex_t, Identity "animal" [])] ++ (ex_u, Identity "dog" ["x:animal"]) :: 
    [(ex_u, Identity "cat" ["x:animal"; "up:pet"]); (ex_u, Identity "puppy" ["up:dog"]); (ex_u, Identity "pet" [])] /\
  DerivedFirst "u" ex_u (Identity "dog" ["x:animal"]) "t" "animal" /\
  Means ex_u "x:animal" "t" "animal" /\
  identityref_values (identity_deps "u" ms []) (module_prefixes ms []) ex_u "x:animal" = Ok ["up:dog"; "up:cat"].
Proof.
  assert (Without ":" "animal") by (cbn; repeat split; discriminate).
  split; [apply ex_named; auto|]. split; [reflexivity|]. split.
  - exists "x:animal", []. split; [reflexivity|]. split; [apply (ex_means_x "animal"); auto|]. intros (_ & X & _). congruence.
  - split; [apply (ex_means_x "animal"); auto | reflexivity].
Qed.

Lemma ex_clean : Clean "u" [ex_t; ex_u].
Proof.
  assert (Without ":" "animal") by (cbn; repeat split; discriminate).
  assert (Without ":" "dog") by (cbn; repeat split; discriminate).
  intros m i b r Hi Hb. cbn in Hi. repeat destruct Hi as [Hi|Hi]; try contradiction; injection Hi as <- <-; try discriminate.
  - injection Hb as <- _. exists "t", "animal". split; [apply (ex_means_x "animal"); auto | reflexivity].
  - injection Hb as <- _. exists "t", "animal". split; [apply (ex_means_x "animal"); auto | reflexivity].
  - injection Hb as <- _. exists "u", "dog". split; [|reflexivity].
    apply (Means_prefixed ex_u "up" "u" "dog"); auto. cbn. repeat split; discriminate.
Qed.

(** The same two modules in the other order: dog is missing. *)
Lemma order_lost : let ms := [ex_u; ex_t] in
  Named ms /\ Clean "u" ms /\ In (ex_u, Identity "dog" ["x:animal"]) (all_ids ms) /\
  Derived ex_u (Identity "dog" ["x:animal"]) "t" "animal" /\ Means ex_u "x:animal" "t" "animal" /\
  identityref_values (identity_deps "u" ms []) (module_prefixes ms []) ex_u "x:animal" = Ok ["up:cat"].
Proof.
  assert (Without ":" "animal") by (cbn; repeat split; discriminate).
  split; [apply ex_named; auto|]. split.
  { intros m i b r H1 H2. apply (ex_clean m i b r); auto.
    cbn in H1 |- *. tauto. }
  split; [left; reflexivity|]. split.
  - exists "x:animal". split; [left; reflexivity | apply (ex_means_x "animal"); auto].
  - split; [apply (ex_means_x "animal"); auto | reflexivity].
Qed.

(** An imported module whose identities have a base without prefix: nothing is listed, though
    the base was seen first. *)
Definition ex_v : mstmt := MStmt true "v" "vp" [("vp", "v")]
  [Identity "shape" []; Identity "round" ["shape"]; Identity "square" ["shape"]].
Definition ex_w : mstmt := MStmt true "w" "wp" [("wp", "w"); ("v", "v")] [].

Lemma import_lost : let ms := [ex_v; ex_w] in
  Named ms /\ In (ex_v, Identity "square" ["shape"]) (all_ids ms) /\
  Derived ex_v (Identity "square" ["shape"]) "v" "shape" /\ Means ex_w "v:shape" "v" "shape" /\
  identityref_values (identity_deps "w" ms []) (module_prefixes ms []) ex_w "v:shape" = Ok [].
Proof.
  assert (W : forall s, forallb (fun c => negb (Ascii.eqb c ":")) (list_ascii_of_string s) = true -> Without ":" s).
  { induction s as [|c s IH]; intros H; [exact I|]. cbn [list_ascii_of_string forallb] in H. apply andb_prop in H as [H1 H2].
    split; [|auto]. intros ->. rewrite Ascii.eqb_refl in H1. discriminate. }
  split.
  { split; [|split; [|split]].
    - constructor; [|constructor; [intros []|constructor]]. intros [H|[]]. discriminate.
    - intros m [<-|[<-|[]]]; apply W; reflexivity.
    - intros m p mn [<-|[<-|[]]] H; [destruct H as [H|[]] | destruct H as [H|[H|[]]]]; injection H as <- <-; apply W; reflexivity.
    - intros m i H. cbn in H. repeat destruct H as [H|H]; try contradiction; injection H as <- <-; apply W; reflexivity. }
  split; [right; right; left; reflexivity|]. split.
  - exists "shape". split; [left; reflexivity|]. apply Means_own. apply W. reflexivity.
  - split; [|reflexivity]. apply (Means_prefixed ex_w "v" "v" "shape"); [apply W; reflexivity|apply W; reflexivity|reflexivity].
Qed.

(** The second base of cat is not seen. *)
Lemma second_lost : let ms := [ex_t; ex_u] in
  Named ms /\ In (ex_u, Identity "cat" ["x:animal"; "up:pet"]) (all_ids ms) /\
  Derived ex_u (Identity "cat" ["x:animal"; "up:pet"]) "u" "pet" /\ Means ex_u "up:pet" "u" "pet" /\
  identityref_values (identity_deps "u" ms []) (module_prefixes ms []) ex_u "up:pet" = Ok [].
Proof.
  assert (Without ":" "pet") by (cbn; repeat split; discriminate).
  assert (Means ex_u "up:pet" "u" "pet").
  { apply (Means_prefixed ex_u "up" "u" "pet"); auto. cbn. repeat split; discriminate. }
  split; [apply ex_named; auto|]. split; [right; right; left; reflexivity|]. split.
  - exists "up:pet". split; [right; left; reflexivity | auto].
  - split; [auto | reflexivity].
Qed.

(** ** Paths *)

Definition ex_path : path := Path false [Up; Up; Plain "a"; Qual "m" "b"; Qual "if" "c"; Qual "if" "d"; Qual "m" "e"].

Lemma ex_path_ok : psteps ex_path <> [] /\ Forall SimpleStep (psteps ex_path) /\ Steady "m" "m" (psteps ex_path) /\
  compact_path "m" (show ex_path) = "../../a/b/if:c/d/m:e".
Proof.
  split; [discriminate|]. split.
  - repeat constructor; cbn; repeat split; try discriminate.
  - split; [cbn; auto | reflexivity].
Qed.

(** A name without prefix after another module's prefix. *)
Lemma path_lost : exists local p, psteps p <> [] /\ Forall SimpleStep (psteps p) /\
  forall q, Forall SimpleStep (psteps q) -> psteps q <> [] -> show q = compact_path local (show p) ->
    compact_meaning local (psteps q) <> map (yang_meaning local) (psteps p).
Proof.
  exists "m", (Path true [Qual "a" "x"; Plain "y"]).
  assert (S : Forall SimpleStep [Qual "a" "x"; Plain "y"]).
  { repeat constructor; cbn; repeat split; discriminate. }
  split; [discriminate|]. split; [exact S|]. intros q Sq Nq E.
  change (compact_path "m" (show (Path true [Qual "a" "x"; Plain "y"]))) with (show (Path true [Qual "a" "x"; Plain "y"])) in E.
  apply show_inj in E; auto; [|discriminate]. subst q. cbn. discriminate.
Qed.

(** ** Copies *)

Definition ex_node : nnode :=
  NElem "{u:nc}config" None [] [(None, "u:nc"); (Some "n", "u:nc")]
    [NElem "{u:x}top" None [("{u:nc}operation", "merge")] [(None, "u:x")]
       [NElem "{u:x}ref" (Some "y:val") [] [(Some "y", "u:y")] []; NElem "{u:x}leaf" (Some "1") [] [] []]].

Lemma ex_node_ok : NoComment ex_node /\
  append_copy [] [(None, "u:nc")] ex_node = Ok (
  NElem "{u:nc}config" None [] [(Some "n", "u:nc")]
    [NElem "{u:x}top" None [("{u:nc}operation", "merge")] [(None, "u:x")]
       [NElem "{u:x}ref" (Some "y:val") [] [(Some "y", "u:y")] []; NElem "{u:x}leaf" (Some "1") [] [] []]]).
Proof. split; [repeat constructor | reflexivity]. Qed.

Definition ex_comment : nnode := NElem "{u:nc}config" None [] [(None, "u:nc")] [NComment (Some "note")].


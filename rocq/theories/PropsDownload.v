(** C50-C55: the download of YANG modules by several threads, the reading of a folder,
    and what the next scan finds. *)
From Coq Require Import String Ascii List Bool Arith Lia.
From Verif Require Import Base DownloadM DownloadSpec DownloadP ReaderP DownloadOnlyP FolderM FolderSpec FolderP DownloadPropsP.
Import ListNotations.
Open Scope string_scope.
Open Scope list_scope.
Open Scope nat_scope.

(** ** C50
    Any number of workers, any schedule, any outcome of every request: there is no
    endless execution, [U] being the finitely many names the modules mention. *)
Theorem C50_ends : forall (ans : string -> outcome -> Prop) U n roots,
  (forall m D, ans m (Read D) -> incl D U) ->
  ~ Endless (step ans) (start n roots).
Proof. exact download_ends. Qed.
Print Assumptions C50_ends.

(** An execution that cannot go on has passed [join]. *)
Theorem C50_returns : forall (ans : string -> outcome -> Prop) n roots st, 0 < n ->
  (forall m, exists o, ans m o) ->
  Steps (step ans) (start n roots) st -> Stuck (step ans) st -> joined st.
Proof. exact stuck_joined. Qed.
Print Assumptions C50_returns.

(** When [join] returns, everything ever put on the queue has been requested. *)
Theorem C50_served : forall ans n roots st, Steps (step ans) (start n roots) st -> joined st ->
  forall m, In m (queued (sh st)) -> In m (map fst (asked (sh st))).
Proof. exact joined_served. Qed.
Print Assumptions C50_served.

(** No request is made after [join] has returned. *)
Theorem C50_final : forall ans n roots st st', Steps (step ans) (start n roots) st -> joined st ->
  Steps (step ans) st st' -> joined st' /\ asked (sh st') = asked (sh st).
Proof. exact joined_final. Qed.
Print Assumptions C50_final.

(** ** C51
    When [join] returns, every module in reach of the advertised ones has been
    requested. *)
Theorem C51_closed : forall ans n roots st, Steps (step ans) (start n roots) st -> joined st ->
  forall m, Reach roots (fun x d => exists D, In (x, Read D) (asked (sh st)) /\ In d D) m ->
  In m (map fst (asked (sh st))).
Proof. exact joined_closed. Qed.
Print Assumptions C51_closed.

(** At any moment: only modules in reach of the advertised ones have been requested, and what
    is kept of a request is an answer of the device. *)
Theorem C51_only : forall (ans : string -> outcome -> Prop) n roots st, Steps (step ans) (start n roots) st ->
  forall m o, In (m, o) (asked (sh st)) ->
  ans m o /\ Reach roots (fun x d => exists D, ans x (Read D) /\ In d D) m.
Proof. exact asked_only. Qed.
Print Assumptions C51_only.

(** So for a device that answers the same every time the modules requested are those in reach,
    whatever the number of workers and the schedule. *)
Theorem C51_exact : forall (dev : string -> outcome) n roots st,
  Steps (step (fun m o => o = dev m)) (start n roots) st -> joined st ->
  forall m, In m (map fst (asked (sh st))) <-> Reach roots (fun x d => exists D, dev x = Read D /\ In d D) m.
Proof. exact asked_exact. Qed.
Print Assumptions C51_exact.
Example C51_exact_case : Steps (step (fun m o => o = dev1 m)) (start 2 ["a"; "b"]) st1 /\ joined st1 /\ In "types" (map fst (asked (sh st1))) /\ length (asked (sh st1)) = 5.
Proof. split; [exact st1_steps |]. repeat split; vm_compute; tauto. Qed.

(** Two modules with a common import and one that cannot be fetched, two workers. *)
Example C50_case : Steps (step (answers dev1)) (start 2 ["a"; "b"]) st1 /\ joined st1 /\
  Stuck (step (answers dev1)) st1 /\
  (forall x D, answers dev1 x (Read D) -> incl D ["common"; "types"]) /\ (forall m, exists o, answers dev1 m o) /\
  queued (sh st1) = ["common"; "types"; "common"; "a"; "b"] /\
  Reach ["a"; "b"] (fun x d => exists D, In (x, Read D) (asked (sh st1)) /\ In d D) "types".
Proof. exact ex_download. Qed.

(** ** C52
    Full statement: every module is requested at most once. It is false with two
    workers, which is what the code starts: both can find the same dependency missing
    before either adds it. *)
Theorem C52_refuted : exists dev roots st m,
  NoDup roots /\ (forall x D, dev x = Read D -> NoDup D) /\
  Steps (step (answers dev)) (start 2 roots) st /\ times m (map fst (asked (sh st))) = 2.
Proof. exact fetched_twice. Qed.
Print Assumptions C52_refuted.

(** Proved: at most once per worker, so exactly the full statement with one worker. *)
Theorem C52_workers_partial : forall (ans : string -> outcome -> Prop) n roots st m, 0 < n -> NoDup roots ->
  (forall x D, ans x (Read D) -> NoDup D) ->
  Steps (step ans) (start n roots) st -> times m (map fst (asked (sh st))) <= n.
Proof. exact asked_at_most. Qed.
Print Assumptions C52_workers_partial.
Example C52_case : NoDup ["a"; "b"] /\ Steps (step (answers dev1)) (start 2 ["a"; "b"]) st1 /\
  times "common" (map fst (asked (sh st1))) = 2 /\ times "types" (map fst (asked (sh st1))) = 1.
Proof. split; [repeat constructor; cbn; intuition discriminate |]. split; [exact st1_steps |]. split; reflexivity. Qed.

(** ** C53
    Full statement: reading the folder ends even if a file cannot be read. It is
    false: one such file is enough to make [join] wait for ever, whatever the number of
    readers and the schedule. *)
Theorem C53_refuted : forall (ans : string -> reading -> Prop) n files f st, 0 < n ->
  In f files -> (forall o, ans f o -> o = Raised) ->
  Steps (cstep ans) (cstart n files) st -> ~ cjoined st.
Proof. exact reader_hangs. Qed.
Print Assumptions C53_refuted.

(** Proved: the readers always stop, and if no file raises, all files are read and
    [join] returns. *)
Theorem C53_ends : forall (ans : string -> reading -> Prop) n files, ~ Endless (cstep ans) (cstart n files).
Proof. exact reader_ends. Qed.
Print Assumptions C53_ends.

Theorem C53_returns_partial : forall (ans : string -> reading -> Prop) n files st, 0 < n ->
  (forall f, ans f Fine) -> (forall f, ~ ans f Raised) ->
  Steps (cstep ans) (cstart n files) st -> Stuck (cstep ans) st ->
  cjoined st /\ forall f, In f files -> In (f, Fine) (cread (csh st)).
Proof. exact reader_returns. Qed.
Print Assumptions C53_returns_partial.

(** No file is read more often than it is listed. *)
Theorem C53_once : forall (ans : string -> reading -> Prop) n files st f, Steps (cstep ans) (cstart n files) st ->
  times f (map fst (cread (csh st))) <= times f files.
Proof. exact read_once. Qed.
Print Assumptions C53_once.

Example C53_case_hangs : exists st, Steps (cstep reads1) (cstart 2 files1) st /\ Stuck (cstep reads1) st /\
  ~ cjoined st /\ length (cread (csh st)) = 3.
Proof. exact ex_hang. Qed.

Example C53_case_returns : exists st, Steps (cstep (fun f o => o = Fine)) (cstart 2 ["a.yang"; "c.yang"]) st /\
  Stuck (cstep (fun f o => o = Fine)) st.
Proof. exact ex_returns. Qed.

(** ** C54
    Full statement: after any history of scans and crashes, a scan with
    download='check' is skipped only if the download for these capabilities was
    completed and nothing was removed since. It is false in two ways. The files are
    removed in any order, so that a crash can leave the old file of capabilities next
    to an incomplete folder: if the device then has its old capabilities again, or the
    interrupted scan was a forced one, the damage is not noticed. *)
Theorem C54_changed_back_refuted : exists es fo tr c, Real es [] /\
  Forall (fun e => match e with EScan s => sc_check s = true | EOther _ _ => True end) es /\
  history es [] [] = (fo, tr) /\ need_download c fo = false /\ ~ Complete c tr.
Proof. exact changed_back. Qed.
Print Assumptions C54_changed_back_refuted.

Theorem C54_force_refuted : exists es fo tr c, Real es [] /\
  Forall (fun e => match e with EScan s => sc_caps s = c | EOther _ _ => True end) es /\
  history es [] [] = (fo, tr) /\ need_download c fo = false /\ ~ Complete c tr.
Proof. exact force_unseen. Qed.
Print Assumptions C54_force_refuted.

(** Proved: for scans with download='check' of a device that never changes, all crash
    points included. *)
Theorem C54_same_device_partial : forall c es fo tr, Real es [] ->
  Forall (fun e => match e with EScan s => sc_check s = true /\ sc_caps s = c | _ => True end) es ->
  history es [] [] = (fo, tr) -> need_download c fo = false -> Complete c tr.
Proof. exact same_caps. Qed.
Print Assumptions C54_same_device_partial.
Definition scan_again : scan := Scan true "A" (map fst (fst (history [EScan scanA] [] []))) [("m", Some "module m"); ("n", None)] "<modules/>" None.
Example C54_same_device_case : exists fo tr, Real [EScan scanA; EScan scan_again] [] /\ history [EScan scanA; EScan scan_again] [] [] = (fo, tr) /\
  sc_check scan_again = true /\ sc_caps scan_again = "A" /\ need_download "A" fo = false /\ In (Ask "m") tr.
Proof.
  destruct (history [EScan scanA; EScan scan_again] [] []) as [fo tr] eqn:E. exists fo, tr. split.
  { split; [exact (walks_same []) |]. split; [| exact I]. exact (walks_same (fst (history [EScan scanA] [] []))). }
  split; [reflexivity |]. vm_compute in E. injection E as <- <-. repeat split. cbn. intuition.
Qed.

(** Proved: for all scans, if the file of capabilities is the first one removed. Then a
    skipped scan finds a complete folder, for the same capabilities or, if a scan was
    killed while it wrote them, for longer ones. *)
Theorem C54_first_partial : forall es fo tr c, Real es [] -> CapFirst es [] ->
  history es [] [] = (fo, tr) -> need_download c fo = false ->
  exists c', Complete c' tr /\ prefix c c' = true.
Proof. exact cap_first. Qed.
Print Assumptions C54_first_partial.

Example C54_case : exists fo tr, history [EScan scanA_killed] [] [] = (fo, tr) /\ Real [EScan scanA_killed] [] /\
  CapFirst [EScan scanA_killed] [] /\
  need_download "AB" fo = true /\ need_download "A" fo = false /\ Complete "AB" tr.
Proof. exact ex_killed. Qed.

(** ** C55
    Full statement: a module whose request failed is requested again by the next scan
    with download='check'. It is false for every download: whichever requests failed,
    later scans of the same device request nothing. *)
Theorem C55_refuted : forall check c walk reqs deps fo,
  download_all check c walk reqs deps fo <> [] ->
  forall es fo' tr, Forall (fun e => match e with
      | EScan s => sc_check s = true /\ sc_caps s = c | EOther f _ => f <> cap_file end) es ->
  history es (act_all (download_all check c walk reqs deps fo) fo) [] = (fo', tr) ->
  forall m, ~ In (Ask m) tr.
Proof. exact not_retried. Qed.
Print Assumptions C55_refuted.

(** Proved: a forced scan and a scan after the capabilities changed request every
    module. *)
Theorem C55_retried_partial : forall check c walk reqs deps fo m,
  check = false \/ assoc String.eqb cap_file fo <> Some c -> In m (map fst reqs) ->
  In (Ask m) (download_all check c walk reqs deps fo).
Proof. exact asked_again. Qed.
Print Assumptions C55_retried_partial.

(** The request for [n] fails, and is not repeated. *)
Example C55_case : In ("n", None) (sc_reqs scanA) /\
  download_all true "A" [] (sc_reqs scanA) "" [] <> [] /\
  snd (history [EScan scanA; EScan scanA] [] []) = snd (history [EScan scanA] [] []).
Proof. split; [right; left; reflexivity|]. split; [discriminate | reflexivity]. Qed.

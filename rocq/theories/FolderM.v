(** The folder of YANG files over a history of scans, crashes included,
    /repo/src/ncdiff/model.py:787-844, /repo/src/ncdiff/manager.py:271-274. *)
From Coq Require Import String Ascii List Bool Arith Lia.
From Verif Require Import Base.
Import ListNotations.
Open Scope string_scope.
Open Scope list_scope.
Open Scope nat_scope.

(** Files by path, with their content. *)
Definition folder := list (string * string).

(** [self.yang_capabilities], model.py:777-780, and the file of
    [write_dependencies], model.py:686-691. Paths are relative to the folder. *)
Definition cap_file := "capabilities.txt".
Definition dep_file := "dependencies.xml".

(** What a scan does, one operation of the file system or request at a time. [Joined c]
    does nothing: it marks the moment [download_queue.join()] returns in a scan of a
    device whose capabilities are [c]. *)
Inductive effect :=
| Remove (f : string)
| Write (f s : string)
| Ask (m : string)
| Joined (c : string).

Definition act (e : effect) (fo : folder) : folder :=
  match e with
  | Remove f => filter (fun p => negb (String.eqb f (fst p))) fo
  | Write f s => dset String.eqb f s fo
  | Ask _ | Joined _ => fo
  end.

(** [need_download], model.py:787-793; [c] is the sorted list of capabilities, joined. *)
Definition need_download (c : string) (fo : folder) : bool :=
  match assoc String.eqb cap_file fo with
  | Some t => negb (String.eqb t c)
  | None => true
  end.

(** One request and, if it succeeded, the file written, model.py:866-879. Opening a file
    for writing empties it. *)
Definition fetch (r : string * option string) : list effect :=
  let '(m, t) := r in
  Ask m :: match t with
           | Some s => [Write (m ++ ".yang") ""; Write (m ++ ".yang") s]
           | None => []
           end.

(** [download_all], model.py:795-844. [walk] are the paths in the order of [os.walk],
    [reqs] the requests of the download phase in the order they are made (DownloadM.v),
    [deps] the text of dependencies.xml. Simplified: requests of different threads
    are not interleaved with each other's file writes. *)
Definition download_all (check : bool) (c : string) (walk : list string)
  (reqs : list (string * option string)) (deps : string) (fo : folder) : list effect :=
  if check && negb (need_download c fo) then []
  else map Remove walk ++ flat_map fetch reqs ++
       [Joined c; Write cap_file ""; Write cap_file c; Write dep_file ""; Write dep_file deps].

(** A scan that is killed: [k] effects are done, and if the next one is a write, the
    first [j] characters are. *)
Definition cut_short (k j : nat) (l : list effect) : list effect :=
  firstn k l ++ match nth_error l k with
                | Some (Write f s) => [Write f (substring 0 j s)]
                | _ => []
                end.

Record scan := Scan {
  sc_check : bool;              (* download='check', otherwise 'force' *)
  sc_caps : string;
  sc_walk : list string;
  sc_reqs : list (string * option string);
  sc_deps : string;
  sc_crash : option (nat * nat) }.

Definition scan_effects (s : scan) (fo : folder) : list effect :=
  let l := download_all (sc_check s) (sc_caps s) (sc_walk s) (sc_reqs s) (sc_deps s) fo in
  match sc_crash s with
  | None => l
  | Some (k, j) => cut_short k j l
  end.

(** What happens to a folder: scans, and other files written to it, such as the compiled
    models (model.py:959-961). A scan with download='ignore' does nothing. *)
Inductive event := EScan (s : scan) | EOther (f t : string).

Definition event_effects (e : event) (fo : folder) : list effect :=
  match e with
  | EScan s => scan_effects s fo
  | EOther f t => [Write f t]
  end.

Definition act_all (l : list effect) (fo : folder) : folder := fold_left (fun fo e => act e fo) l fo.

(** The folder after a history, and everything done so far. *)
Fixpoint history (es : list event) (fo : folder) (tr : list effect) : folder * list effect :=
  match es with
  | [] => (fo, tr)
  | e :: r => let l := event_effects e fo in history r (act_all l fo) (tr ++ l)
  end.

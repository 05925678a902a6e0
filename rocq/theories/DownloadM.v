(** The download phase and the reading of YANG files: worker threads that share a
    queue, /repo/src/ncdiff/model.py:494-545,700-712,795-901.

    One step of a worker is one operation on data that other threads can see:
    a call on the queue, a request to the device, a use of [to_be_downloaded].
    Simplified: [add_module] and [update_dependencies] are one step together with
    the request; they run inside one thread and their result only reaches the others
    through [to_be_downloaded] and the queue. Every request ends, with an error if
    nothing else (ncclient has a timeout). Logging is left out. *)
From Coq Require Import String Ascii List Bool Arith Lia.
From Verif Require Import Base.
Import ListNotations.
Open Scope string_scope.
Open Scope list_scope.
Open Scope nat_scope.

(** What one call of [download], model.py:846-901, comes to:
    [Failed]: RPCError, another exception from the request, or a reply that is not ok;
    [Unread]: a reply whose text makes [add_module] or [update_dependencies] raise,
    which [run] catches (model.py:507-510);
    [Read D]: [D] is the set returned by [update_dependencies] (model.py:616-684). *)
Inductive outcome := Failed | Unread | Read (D : list string).

(** Where a worker is in [DownloadWorker.run], model.py:500-512. *)
Inductive worker :=
| WTop                      (* at [while not download_queue.empty()] *)
| WGet                      (* at [download_queue.get(timeout=0.01)] *)
| WHave (m : string)        (* has the module name, calls [download] *)
| WDeps (D : list string)   (* has the dependencies, before model.py:892 *)
| WAdd (s : list string)    (* has a non-empty [s], before model.py:896 *)
| WPut (l : list string)    (* still has to put [l], model.py:897-898 *)
| WDone                     (* at [task_done()] *)
| WExit.

(** Everything the threads share. [unfinished] is the counter inside [queue.Queue] that
    [put] increases, [task_done] decreases and [join] waits for. [asked] and [queued]
    are not in Python: the requests made so far with their outcomes, newest first, and
    the names ever put. *)
Record shared := Shared {
  queue : list string;
  unfinished : nat;
  tobe : list string;
  asked : list (string * outcome);
  queued : list string }.

(** [dependencies - self.to_be_downloaded], model.py:892. *)
Definition minus (D T : list string) : list string :=
  filter (fun m => negb (mem String.eqb m T)) D.

(** One step of a worker; [o] is the outcome if the step is a request. *)
Definition wstep (o : outcome) (g : shared) (w : worker) : option (shared * worker) :=
  let 'Shared q u t a l := g in
  match w with
  | WTop => Some (g, match q with [] => WExit | _ => WGet end)
  | WGet => match q with
            | [] => Some (g, WTop)                                  (* queue.Empty *)
            | m :: r => Some (Shared r u t a l, WHave m)
            end
  | WHave m =>
      Some (Shared q u t ((m, o) :: a) l,
            match o with Failed | Unread => WDone | Read D => WDeps D end)
  | WDeps D => Some (g, match minus D t with [] => WDone | s => WAdd s end)
  | WAdd s => Some (Shared q u (t ++ minus s t) a l, WPut s)
  | WPut [] => Some (g, WDone)
  | WPut (m :: r) => Some (Shared (q ++ [m]) (S u) t a (m :: l), WPut r)
  | WDone => match u with
             | 0 => Some (g, WExit)                                 (* ValueError *)
             | S u' => Some (Shared q u' t a l, WTop)
             end
  | WExit => None
  end.

Record state := State { sh : shared; workers : list worker }.

Fixpoint set_nth {A} (i : nat) (x : A) (l : list A) : list A :=
  match l, i with
  | [], _ => []
  | _ :: r, 0 => x :: r
  | y :: r, S j => y :: set_nth j x r
  end.

(** Worker [i] makes a step. *)
Definition move (i : nat) (o : outcome) (st : state) : option state :=
  match nth_error (workers st) i with
  | None => None
  | Some w => match wstep o (sh st) w with
              | None => None
              | Some (g, w') => Some (State g (set_nth i w' (workers st)))
              end
  end.

(** [download_all] up to [join], model.py:826-836: the queue is filled before the
    [n] workers start ([num_threads] is 2, model.py:784). A worker that has not
    started yet is one that has not moved. *)
Definition start (n : nat) (roots : list string) : state :=
  State (Shared roots (length roots) roots [] roots) (repeat WTop n).

(** Any worker moves; what the device answers is restricted by [ans] only. *)
Definition may_ask (ans : string -> outcome -> Prop) (w : worker) (o : outcome) : Prop :=
  match w with WHave m => ans m o | _ => True end.

Definition step (ans : string -> outcome -> Prop) (st st' : state) : Prop :=
  exists i o w, nth_error (workers st) i = Some w /\ may_ask ans w o /\ move i o st = Some st'.

(** [join] has returned or returns now, model.py:836. *)
Definition joined (st : state) : Prop := unfinished (sh st) = 0.

(** ** Reading the YANG files of a folder *)

(** What becomes of one file in [ContextWorker.run], model.py:522-544: [Fine], also if
    pyang rejects the text and returns None, or [Raised]: the file cannot be read as
    UTF-8, or [add_module] or [update_dependencies] raises. Nothing catches that. *)
Inductive reading := Fine | Raised.

Inductive reader :=
| RTop | RGet | RHave (f : string) | RDone
| RExit                     (* ended or dead *).

Record cshared := CShared {
  cqueue : list string;
  cunfinished : nat;
  cread : list (string * reading) (* not in Python: the files taken so far *) }.

Definition rstep (o : reading) (g : cshared) (w : reader) : option (cshared * reader) :=
  let 'CShared q u a := g in
  match w with
  | RTop => Some (g, match q with [] => RExit | _ => RGet end)
  | RGet => match q with
            | [] => Some (g, RTop)
            | f :: r => Some (CShared r u a, RHave f)
            end
  | RHave f => Some (CShared q u ((f, o) :: a), match o with Fine => RDone | Raised => RExit end)
  | RDone => match u with
             | 0 => Some (g, RExit)
             | S u' => Some (CShared q u' a, RTop)
             end
  | RExit => None
  end.

Record cstate := CState { csh : cshared; readers : list reader }.

Definition cmove (i : nat) (o : reading) (st : cstate) : option cstate :=
  match nth_error (readers st) i with
  | None => None
  | Some w => match rstep o (csh st) w with
              | None => None
              | Some (g, w') => Some (CState g (set_nth i w' (readers st)))
              end
  end.

(** [load_context], model.py:700-712, up to [join]. *)
Definition cstart (n : nat) (files : list string) : cstate :=
  CState (CShared files (length files) []) (repeat RTop n).

Definition may_read (ans : string -> reading -> Prop) (w : reader) (o : reading) : Prop :=
  match w with RHave f => ans f o | _ => True end.

Definition cstep (ans : string -> reading -> Prop) (st st' : cstate) : Prop :=
  exists i o w, nth_error (readers st) i = Some w /\ may_read ans w o /\ cmove i o st = Some st'.

Definition cjoined (st : cstate) : Prop := cunfinished (csh st) = 0.

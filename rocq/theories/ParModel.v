(** Model of the parallel domains that talk to their worker processes through pipes.
    skdecide/domains.py:364-428 (ParallelDomain: active flags, wake_up_domain), 502-510 (call and the
    methods passed on), 525-554 (_launch_domain_server_), 556-608 (PipeParallelDomain).

    The system is a transition system: client threads and worker processes take turns in any order, and
    every access to something shared (an active flag, a pipe, a cell of the list of results) is one step.
    Left out: opening and closing of the processes and of the notification sockets, logging.  A pipe is a
    FIFO without bound on its length. *)
From Coq Require Import String.
From Coq Require Import List Bool Arith.
From Verif Require Import Py.
Import ListNotations.
Open Scope nat_scope.
Set Implicit Arguments.
Set Contextual Implicit.

Section Par.
Variables A V D : Type.

(** A job: domains.py:541-544; a method of the domain by its name, or a lambda by its number. *)
Inductive func := Method (name : string) | Lambda (k : nat).
Definition job : Type := func * list A.
(** What the work on a job ends with. *)
Inductive outcome := Val (v : V) | Exn (e : string).

(** Python's [None], as a value. *)
Variable none : V.
(** The methods of a domain (attribute access included) and the lambdas given to the constructor; they
    may change the domain. *)
Variable meth : D -> string -> list A -> D * outcome.
Variable lams : list (D -> list A -> D * outcome).

(** domains.py:541-544 *)
Definition run (d : D) (j : job) : D * outcome :=
  match fst j with
  | Method name => meth d name (snd j)
  | Lambda k => match nth_error lams k with
                | Some f => f d (snd j)
                | None => (d, Exn "list index out of range"%string)
                end
  end.

(** Where a client thread is.
    [CScan j]: in the loop of wake_up_domain about to look at flag [j] (domains.py:421-423);
    [CMark i]: about to set flag [i] (424, 427); [CSend i]: about to send (581);
    [CWait i]: get_result(i), in recv (590); [CGot i]: about to read the result (591);
    [CRead i v]: about to clear it (592); [CClear i v]: about to reset the flag and return (593-594). *)
Inductive cpc :=
| CIdle | CScan (j : nat) (b : job) | CMark (i : nat) (b : job) | CSend (i : nat) (b : job)
| CWait (i : nat) | CGot (i : nat) | CRead (i : nat) (v : V) | CClear (i : nat) (v : V).

(** Where a worker is: [WRecv] 532, [WGot] 533, [WRun] 541-544, [WStore] 545, [WPush] 547, [WSend] 548,
    [WFail] 552-554. *)
Inductive wpc :=
| WRecv | WGot (b : job) | WRun (b : job) | WStore (v : V) | WPush | WSend | WFail (e : string).

Record state := St {
  s_flag : nat -> bool;            (* _active_domains *)
  s_jobs : nat -> list job;        (* pipes to the workers *)
  s_notes : nat -> list string;    (* pipes back *)
  s_ipc : nat -> list string;      (* notifications, when asked for *)
  s_cell : nat -> V;               (* _job_results *)
  s_work : nat -> wpc;
  s_dom : nat -> D;                (* the domain of each worker *)
  s_pc : nat -> cpc;               (* client threads *)
  s_pend : nat -> bool             (* bookkeeping of the clients: jobs launched and not asked back *)
}.

Definition upd {X} (f : nat -> X) (i : nat) (x : X) : nat -> X := fun k => if k =? i then x else f k.

Variable n : nat.                       (* nb_domains *)
Variable ipc : bool.                    (* ipc_notify *)
Variable may : nat -> nat -> Prop.      (* the domains that a thread gets or asks for *)

(** What a client sees: its job was sent to domain [i]; sending failed (launch returns [None],
    domains.py:583-587); get_result(i) returned [v]. *)
Inductive event := ELaunch (t i : nat) (b : job) | EFail (t i : nat) | EReturn (t i : nat) (v : V).

Definition set_flag s i x := St (upd (s_flag s) i x) (s_jobs s) (s_notes s) (s_ipc s) (s_cell s) (s_work s) (s_dom s) (s_pc s) (s_pend s).
Definition set_jobs s i x := St (s_flag s) (upd (s_jobs s) i x) (s_notes s) (s_ipc s) (s_cell s) (s_work s) (s_dom s) (s_pc s) (s_pend s).
Definition set_notes s i x := St (s_flag s) (s_jobs s) (upd (s_notes s) i x) (s_ipc s) (s_cell s) (s_work s) (s_dom s) (s_pc s) (s_pend s).
Definition set_ipc s i x := St (s_flag s) (s_jobs s) (s_notes s) (upd (s_ipc s) i x) (s_cell s) (s_work s) (s_dom s) (s_pc s) (s_pend s).
Definition set_cell s i x := St (s_flag s) (s_jobs s) (s_notes s) (s_ipc s) (upd (s_cell s) i x) (s_work s) (s_dom s) (s_pc s) (s_pend s).
Definition set_work s i x := St (s_flag s) (s_jobs s) (s_notes s) (s_ipc s) (s_cell s) (upd (s_work s) i x) (s_dom s) (s_pc s) (s_pend s).
Definition set_dom s i x := St (s_flag s) (s_jobs s) (s_notes s) (s_ipc s) (s_cell s) (s_work s) (upd (s_dom s) i x) (s_pc s) (s_pend s).
Definition set_pc s t x := St (s_flag s) (s_jobs s) (s_notes s) (s_ipc s) (s_cell s) (s_work s) (s_dom s) (upd (s_pc s) t x) (s_pend s).
Definition set_pend s i x := St (s_flag s) (s_jobs s) (s_notes s) (s_ipc s) (s_cell s) (s_work s) (s_dom s) (s_pc s) (upd (s_pend s) i x).

Inductive step : state -> list event -> state -> Prop :=
(* launch(None, ...): wake_up_domain looks for a domain that is not active, domains.py:420-425 *)
| S_scan : forall s t b, s_pc s t = CIdle -> step s [] (set_pc s t (CScan 0 b))
| S_busy : forall s t j b, s_pc s t = CScan j b -> j < n -> s_flag s j = true -> step s [] (set_pc s t (CScan (S j) b))
| S_again : forall s t b, s_pc s t = CScan n b -> step s [] (set_pc s t (CScan 0 b))
| S_found : forall s t j b, s_pc s t = CScan j b -> j < n -> s_flag s j = false -> may t j ->
    step s [] (set_pc s t (CMark j b))
(* launch(i, ...), for a domain without a job under way *)
| S_on : forall s t i b, s_pc s t = CIdle -> i < n -> may t i -> s_pend s i = false -> step s [] (set_pc s t (CMark i b))
| S_mark : forall s t i b, s_pc s t = CMark i b -> step s [] (set_pc (set_flag s i true) t (CSend i b))
| S_send : forall s t i b, s_pc s t = CSend i b ->
    step s [ELaunch t i b] (set_pc (set_pend (set_jobs s i (s_jobs s i ++ [b])) i true) t CIdle)
| S_unsent : forall s t i b, s_pc s t = CSend i b -> step s [EFail t i] (set_pc s t CIdle)
(* get_result(i), for a job launched before: domains.py:589-594 *)
| S_get : forall s t i, s_pc s t = CIdle -> i < n -> may t i -> s_pend s i = true ->
    step s [] (set_pc (set_pend s i false) t (CWait i))
| S_recv : forall s t i m r, s_pc s t = CWait i -> s_notes s i = m :: r ->
    step s [] (set_pc (set_notes s i r) t (CGot i))
| S_read : forall s t i, s_pc s t = CGot i -> step s [] (set_pc s t (CRead i (s_cell s i)))
| S_clear : forall s t i v, s_pc s t = CRead i v -> step s [] (set_pc (set_cell s i none) t (CClear i v))
| S_free : forall s t i v, s_pc s t = CClear i v ->
    step s [EReturn t i v] (set_pc (set_flag s i false) t CIdle)
(* the worker of domain i: domains.py:531-554 *)
| W_recv : forall s i b r, i < n -> s_work s i = WRecv -> s_jobs s i = b :: r ->
    step s [] (set_work (set_jobs s i r) i (WGot b))
| W_reset : forall s i b, i < n -> s_work s i = WGot b -> step s [] (set_work (set_cell s i none) i (WRun b))
| W_run : forall s i b d v, i < n -> s_work s i = WRun b -> run (s_dom s i) b = (d, Val v) ->
    step s [] (set_work (set_dom s i d) i (WStore v))
| W_raise : forall s i b d e, i < n -> s_work s i = WRun b -> run (s_dom s i) b = (d, Exn e) ->
    step s [] (set_work (set_dom s i d) i (WFail e))
| W_store : forall s i v, i < n -> s_work s i = WStore v ->
    step s [] (set_work (set_cell s i v) i (if ipc then WPush else WSend))
| W_push : forall s i, i < n -> s_work s i = WPush ->
    step s [] (set_work (set_ipc s i (s_ipc s i ++ ["0"%string])) i WSend)
| W_send : forall s i, i < n -> s_work s i = WSend ->
    step s [] (set_work (set_notes s i (s_notes s i ++ ["0"%string])) i WRecv)
| W_fail : forall s i e, i < n -> s_work s i = WFail e ->
    step s [] (set_work (if ipc then set_ipc s i (s_ipc s i ++ [e]) else set_notes s i (s_notes s i ++ [e])) i WRecv).

(** The constructor and _launch_processes: domains.py:370-381, 562-571, 596-608; each worker builds a
    domain of its own. *)
Definition init (d0 : nat -> D) : state :=
  St (fun _ => false) (fun _ => []) (fun _ => []) (fun _ => []) (fun _ => none) (fun _ => WRecv) d0
     (fun _ => CIdle) (fun _ => false).

(** An execution and what the clients see of it. *)
Inductive exec : state -> list event -> state -> Prop :=
| E_refl : forall s, exec s [] s
| E_step : forall s tr s1 ev s2, exec s tr s1 -> step s1 ev s2 -> exec s (tr ++ ev) s2.
End Par.

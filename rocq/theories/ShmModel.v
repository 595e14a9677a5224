(** Model of the parallel domains that talk to their worker processes through shared memory.
    skdecide/domains.py:620-696 (_shm_launch_domain_server_), 699-845 (ShmParallelDomain).

    The exchange of one job is modelled, step by step: the layout of the registers, [launch], the round of
    the server and [get_result].  How threads share domains, and the active flags, are those of ParModel.v
    and are left out; so are the conditions, the notifications and logging.  A type is known by its
    __name__, as in the code.  The shared arrays are cells of a memory; the proxy of the user
    encodes a value by overwriting cells and decodes it from them, and does not raise.  Names are made of
    bytes (of one byte each: len(function) counts characters, domains.py:758-759). *)
From Coq Require Import String.
From Coq Require Import List Bool Arith Ascii.
From Verif Require Import Py PyList.
Import ListNotations.
Open Scope nat_scope.
Set Implicit Arguments.

(** The layout of the registers of one domain: domains.py:718-723. *)
Record layout := Lay {
  l_regs : list (string * (nat * nat));    (* _shm_registers *)
  l_types : list (nat * string);           (* _shm_types *)
  l_sizes : list (string * nat);           (* _shm_sizes *)
  l_rsize : nat                            (* _rsize *)
}.

(** One type of the register, with its number of registers and of arrays for each:
    domains.py:729-746, for the first domain.  [range] refuses a null step. *)
Definition declare (lay : layout) (r : string * nat * nat) : res layout :=
  let '(T, c, sz) := r in
  let j := l_rsize lay in
  if c =? 0 then Ok lay
  else if sz =? 0 then Err ValueError
  else Ok (Lay (dset (l_regs lay) T (j, j + c * sz))
               (fold_left (fun d o => dset d (j + o * sz) T) (seq 0 c) (l_types lay))
               (dset (l_sizes lay) T sz)
               (j + c * sz)).

Definition build (reg : list (string * nat * nat)) : res layout := foldM declare (Lay [] [] [] 0) reg.

(** Length of _shm_params: domains.py:749. *)
Definition slots (reg : list (string * nat * nat)) : nat := fold_right (fun r n => snd (fst r) + n) 0 reg.

(** The memory: _shm_arrays[si:si + sz], and what encoding leaves there. *)
Definition slice {C} (m : nat -> C) (si sz : nat) : list C := map m (seq si sz).
Definition write {C} (m : nat -> C) (si : nat) (l : list C) : nat -> C :=
  fun k => if si <=? k then match nth_error l (k - si) with Some c => c | None => m k end else m k.

(** Names in arrays of 100 bytes: domains.py:748, 758-759, and get_string, 629-633. *)
Definition width : nat := 100.
Definition pad (name : list ascii) : res (list ascii) :=
  if width <? length name then Err ValueError else Ok (name ++ repeat zero (width - length name)).
Fixpoint get_string (s : list ascii) : list ascii :=
  match s with
  | [] => []
  | c :: r => if Ascii.eqb c zero then [] else c :: get_string r
  end.

Section Shm.
Variables V C D : Type.
Variable typ : V -> string.                       (* type(v).__name__ *)
Variable is_none : V -> bool.
Variable enc : V -> list C -> list C.             (* shm_proxy.encode *)
Variable dec : string -> list C -> V.             (* shm_proxy.decode *)

(** A job: a method by its name, or a lambda. *)
Inductive func := Method (name : list ascii) | Lambda (k : nat).
(** What a method ends with: a tuple, something else, or an exception. *)
Inductive outcome := One (v : V) | Many (l : list V) | Raise.
Variable run : D -> func -> list V -> D * outcome.
Variable lay : layout.

(** The shared state; -1 is [None] in the parameters and lambdas. *)
Record shm := Shm {
  m_cells : nat -> C;
  m_params : nat -> list (option nat);
  m_lam : nat -> option nat;
  m_name : nat -> list ascii
}.
Definition upd {X} (f : nat -> X) (i : nat) (x : X) : nat -> X := fun k => if k =? i then x else f k.

(** Reading parameters: domains.py:646-655 and 796-805. *)
Fixpoint fetch (cells : nat -> C) (i : nat) (params : list (option nat)) : res (list V) :=
  match params with
  | Some p :: r =>
      let* T := dgetE (l_types lay) p in
      let* sz := dgetE (l_sizes lay) T in
      let* l := fetch cells i r in
      Ok (dec T (slice cells (i * l_rsize lay + p) sz) :: l)
  | _ => Ok []
  end.

(** Writing parameters, from number [j] on: domains.py:764-785 and 664-686.  [inc] is what a type met
    again adds to its counter.  The writes done before an exception stay. *)
Fixpoint store (inc : nat -> nat) (i j : nat) (vs : list V) (counters : list (string * nat))
  (cells : nat -> C) (params : list (option nat)) : (nat -> C) * list (option nat) * res unit :=
  match vs with
  | [] => (cells, params, Ok tt)
  | v :: r =>
      let T := typ v in
      match dget (l_regs lay) T, dget (l_sizes lay) T with
      | Some (start, end_), Some sz =>
          let k := match dget counters T with Some c => c + inc sz | None => start end in
          if dmem counters T && (end_ <=? k) then (cells, params, Err IndexError)
          else if length params <=? j then (cells, params, Err IndexError)
          else
            let si := i * l_rsize lay + k in
            store inc i (S j) r (dset counters T k)
              (write cells si (enc v (slice cells si sz)))
              (firstn j params ++ Some k :: skipn (S j) params)
      | _, _ => (cells, params, Err KeyError)
      end
  end.

Definition blank (params : list (option nat)) : list (option nat) := repeat None (length params).

(** domains.py:753-793 once the domain is chosen; the boolean tells whether the job was handed over. *)
Definition launch (s : shm) (i : nat) (f : func) (args : list V) : shm * bool :=
  let named := match f with
    | Method name => match pad name with
                     | Ok b => (Shm (m_cells s) (m_params s) (upd (m_lam s) i None) (upd (m_name s) i b), true)
                     | Err _ => (Shm (m_cells s) (m_params s) (upd (m_lam s) i None) (m_name s), false)
                     end
    | Lambda k => (Shm (m_cells s) (m_params s) (upd (m_lam s) i (Some k)) (upd (m_name s) i (repeat zero width)), true)
    end in
  let s1 := fst named in
  if snd named then
    match store (fun sz => sz) i 0 args [] (m_cells s1) (blank (m_params s1 i)) with
    | (cells, params, r) =>
        (Shm cells (upd (m_params s1) i params) (m_lam s1) (m_name s1), match r with Ok _ => true | Err _ => false end)
    end
  else (s1, false).

(** The job of a round: domains.py:645-686; whatever is raised is only logged. *)
Definition work (s : shm) (i : nat) (d : D) (f : func) : shm * D :=
  match fetch (m_cells s) i (m_params s i) with
  | Err _ => (s, d)
  | Ok args =>
      match run d f args with
      | (d', Raise) => (s, d')
      | (d', o) =>
          let result := match o with One v => [v] | Many l => l | Raise => [] end in
          let params := blank (m_params s i) in
          let s1 := Shm (m_cells s) (upd (m_params s) i params) (m_lam s) (m_name s) in
          match result with
          | [] => (s1, d')
          | v :: _ =>
              if is_none v then (s1, d')
              else match store (fun _ => 1) i 0 result [] (m_cells s) params with
                   | (cells, ps, _) => (Shm cells (upd (m_params s) i ps) (m_lam s) (m_name s), d')
                   end
          end
      end
  end.

(** One round of the server of domain [i]: domains.py:639-694; [None] when it stops. *)
Definition serve (s : shm) (i : nat) (d : D) : option (shm * D) :=
  match m_lam s i with
  | Some k => Some (work s i d (Lambda k))
  | None => match m_name s i with
            | [] => None
            | c :: _ => if Ascii.eqb c zero then None else Some (work s i d (Method (get_string (m_name s i))))
            end
  end.

(** What a client gets: None, one value, or a list: domains.py:807. *)
Inductive answer := Nothing | Value (v : V) | Values (l : list V).

(** domains.py:795-807, once the server is done. *)
Definition get_result (s : shm) (i : nat) : res answer :=
  let* l := fetch (m_cells s) i (m_params s i) in
  Ok (match l with [] => Nothing | [v] => Value v | _ => Values l end).

(** The constructor: domains.py:725-749. *)
Definition fresh (cells : nat -> C) (n : nat) : shm :=
  Shm cells (fun _ => repeat None n) (fun _ => None) (fun _ => repeat zero width).
End Shm.

(** Model of [GymDiscreteActionDomain] (/repo/skdecide/hub/domain/gym/gym.py, lines 590-670): the
    discretisation of a gym action space into a list of applicable actions.

    Simplifications.  Box bounds and grid values are exact rationals or infinite; the conversion of the
    values to the dtype of the Box is not modelled.  The samples drawn from an unbounded Box are the
    successive values of a stream ([draw]).  MultiBinary(n) has an integer [n], as in gym up to 0.20.
    A Box is given by its shape and the list of the bounds of its cells. *)
From Coq Require Import String.
From Coq Require Import List Bool Arith ZArith QArith.
Import ListNotations.
From Verif Require Import Py PyList.
Set Implicit Arguments.
Open Scope nat_scope.

(** A bound of a Box cell. *)
Inductive bound := Fin (q : Q) | NegInf | PosInf.

(** [gym.spaces] used as action spaces. *)
Inductive aspace :=
| ABox (shape : list nat) (bounds : list (bound * bound))
| ADiscrete (n : Z)
| AMultiDiscrete (nvec : list Z)
| AMultiBinary (n : Z)
| ATuple (l : list aspace)
| ADict (l : list (string * aspace))
| AOther.

(** The content of a cell of a numpy array: a number, NaN, or whatever the memory contained when
    [np.ndarray(shape=…)] allocated it without initialisation. *)
Inductive cellv := CV (q : Q) | CNaN | CGarbage.

(** Actions: an integer (or boolean), a list, an array. *)
Inductive act :=
| AInt (z : Z)
| AList (l : list act)
| AArr (l : list cellv).

(** Computations that consume the stream of samples. *)
Definition RM (A : Type) := nat -> res (A * nat).
Definition rret {A} (a : A) : RM A := fun c => Ok (a, c).
Definition rfail {A} (e : py_err) : RM A := fun _ => Err e.
Definition rbind {A B} (m : RM A) (f : A -> RM B) : RM B :=
  fun c => match m c with Ok (a, c') => f a c' | Err e => Err e end.
Notation "'let?' x ':=' r 'in' k" := (rbind r (fun x => k))
  (at level 200, x name, r at level 100, k at level 200, right associativity).

(** Python's [range(n)] as integers. *)
Definition zrange (n : Z) : list Z := map Z.of_nat (seq 0 (Z.to_nat n)).

Section Discretize.
  (** the successive samples of the unbounded cells *)
  Variable draw : nat -> Q.
  (** [discretization_factor] *)
  Variable D : nat.

  (** gym.py 621-625: the values tried for one cell.  With a factor of one the step is a division by
      zero on numpy floats, i.e. an infinity or NaN, and its product with [i = 0] is NaN. *)
  Definition cell_values (b : bound * bound) : RM (list cellv) :=
    match b with
    | (Fin l, Fin h) =>
        rret (if D =? 1 then [CNaN]
              else map (fun i => CV (l + ((h - l) / inject_Z (Z.of_nat D - 1)) * inject_Z (Z.of_nat i))%Q)
                       (seq 0 D))
    | _ => fun c => Ok (map (fun i => CV (draw (c + i))) (seq 0 D), c + D)
    end.

  Fixpoint cells_values (bs : list (bound * bound)) : RM (list (list cellv)) :=
    match bs with
    | [] => rret []
    | b :: r => let? v := cell_values b in let? t := cells_values r in rret (v :: t)
    end.

  (** gym.py 660-670: the array built for one combination of cell values.  For a one-dimensional shape
      only the first cell is assigned; otherwise [for i, in np.nditer(ar)] unpacks a 0-d array, which
      raises [TypeError]. *)
  Definition box_action (shape : list nat) (alist : list cellv) : res act :=
    match shape with
    | [n] => match n, alist with
             | S m, a :: _ => Ok (AArr (a :: repeat CGarbage m))
             | _, _ => Err IndexError
             end
    | _ => Err TypeError
    end.

  (** gym.py 654-670 [_generate_box_action_combinations]; [alist] grows at its end. *)
  Fixpoint combos (actions : list (list cellv)) (shape : list nat) (alist : list cellv)
    : res (list act) :=
    match actions with
    | [] => let* a := box_action shape alist in Ok [a]
    | vs :: r =>
        (fix go (vs : list cellv) : res (list act) :=
           match vs with
           | [] => Ok []
           | v :: t => let* l := combos r shape (alist ++ [v]) in
                       let* m := go t in Ok (l ++ m)
           end) vs
    end.

  (** gym.py 632-634: [generate] of a MultiDiscrete space, from component [d] on. *)
  Fixpoint multi (nvec : list Z) : res (list act) :=
    match nvec with
    | [] => Err IndexError
    | [n] => Ok (map (fun e => AList [AInt e]) (zrange n))
    | n :: r =>
        let* g := (if (n <=? 0)%Z then Ok [] else multi r) in
        mapM (fun p => match p with
                       | (e, AList l) => Ok (AList (AInt e :: l))
                       | _ => Err TypeError
                       end) (flat_map (fun e => map (fun a => (e, a)) g) (zrange n))
    end.

  (** gym.py 642-644: one turn of the comprehension, [[e] + g]. *)
  Definition cons_act (e g : act) : res act :=
    match g with AList l => Ok (AList (e :: l)) | _ => Err TypeError end.

  (** gym.py 615-652 [_discretize_action_space]; [None] is Python's None, returned for a Dict (646-650:
      the branch has no return statement).  [.get_elements()] on it raises [AttributeError]. *)
  Fixpoint discretize (sp : aspace) : RM (option (list act)) :=
    match sp with
    | ABox shape bounds =>
        (* np.nditer refuses zero-sized operands (621) *)
        if length bounds =? 0 then rfail ValueError
        else let? vs := cells_values bounds in
             fun c => let* l := combos vs shape [] in Ok (Some l, c)
    | ADiscrete n => rret (Some (map AInt (zrange n)))
    | AMultiDiscrete nvec => fun c => let* l := multi nvec in Ok (Some l, c)
    | AMultiBinary _ => rfail TypeError      (* 638: [len(action_space.n)] of an integer *)
    | ATuple sps =>
        let? l := (fix generate (sps : list aspace) : RM (list act) :=
           match sps with
           | [] => rfail IndexError
           | s :: r =>
               let? o := discretize s in
               match o with
               | None => rfail AttributeError
               | Some es =>
                   match r with
                   | [] => rret (map (fun e => AList [e]) es)
                   | _ :: _ =>
                       (* [generate(d+1)] is evaluated again for each [e], drawing new samples *)
                       (fix each (es : list act) : RM (list act) :=
                          match es with
                          | [] => rret []
                          | e :: t => let? g := generate r in
                                      let? l := (fun c => let* l := mapM (cons_act e) g in Ok (l, c)) in
                                      let? m := each t in rret (l ++ m)
                          end) es
                   end
               end
           end) sps in rret (Some l)
    | ADict _ => rret None
    | AOther => rfail RuntimeError
    end.

  (** [random.sample(population, k)]: [k] elements at distinct positions *)
  Variable sample : list act -> nat -> list act.

  (** gym.py 598-610 [__init__] and 612-613: what [get_applicable_actions] returns; [None] if the
      discretisation returned None and no branching factor is given. *)
  Definition applicable_actions (sp : aspace) (branching_factor : option Z) : res (option (list act)) :=
    let* p := discretize sp 0 in
    match branching_factor with
    | None => Ok (fst p)
    | Some b =>
        match fst p with
        | None => Err AttributeError
        | Some l =>
            if (b <? Z.of_nat (length l))%Z
            then if (b <? 0)%Z then Err ValueError else Ok (Some (sample l (Z.to_nat b)))
            else Ok (Some l)
        end
    end.
End Discretize.

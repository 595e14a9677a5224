(** Model of the state-feature encoders of [GymWidthDomain]
    (/repo/skdecide/hub/domain/gym/gym.py, lines 239-517): [bee1_features], [bee2_features] and
    [binary_features].

    Simplifications.  A cell of a Box observation is an exact integer or NaN: IEEE values are ordered
    as their exact values, so the order-only encoder BEE2 is rendered exactly for finite floats, and
    the subtraction and addition of BEE1 are exact instead of rounded; infinite cells are not
    represented.  Unwrapping of a [GymDomainStateProxy] (290, 402, 455) is the identity here.  An
    element whose Python type does not match the type of its space raises [TypeError] or
    [AttributeError] without distinguishing numpy subtypes.  [nb_of_binary_features] (439-445) is not
    modelled: it calls [_binary_features] with four arguments although that method takes two, hence
    always raises [TypeError]. *)
From Coq Require Import String.
From Coq Require Import List Bool Arith ZArith Lia.
Import ListNotations.
From Verif Require Import Py PyList.
Set Implicit Arguments.

(** ** Numbers *)

(** A Python float: an exact value or NaN. *)
Inductive num := Num (z : Z) | NaN.

(** [a < b], [a <= b], [a > b] on floats: false as soon as one side is NaN. *)
Definition nlt (a b : num) : bool :=
  match a, b with Num x, Num y => Z.ltb x y | _, _ => false end.
Definition nle (a b : num) : bool :=
  match a, b with Num x, Num y => Z.leb x y | _, _ => false end.
Definition ngt (a b : num) : bool := nlt b a.

(** [a - b], [a + b] and [s * a] (NaN propagates). *)
Definition nsub (a b : num) : num :=
  match a, b with Num x, Num y => Num (x - y) | _, _ => NaN end.
Definition nadd (a b : num) : num :=
  match a, b with Num x, Num y => Num (x + y) | _, _ => NaN end.
Definition nscale (s : Z) (a : num) : num :=
  match a with Num x => Num (s * x) | NaN => NaN end.

(** [bisect.bisect_left(a, x)] on a sorted list [a]: the number of leading elements below [x]. *)
Fixpoint bisect_left (a : list num) (x : num) : nat :=
  match a with
  | [] => 0
  | y :: r => if nlt y x then S (bisect_left r x) else 0
  end.

(** ** Gym spaces and their elements *)

(** [gym.spaces]: Box (with its number of cells), Discrete(n), MultiDiscrete(nvec), MultiBinary(n),
    Tuple, Dict (keys in order), and anything else. *)
Inductive gspace :=
| GBox (size : nat)
| GDiscrete (n : Z)
| GMultiDiscrete (nvec : list Z)
| GMultiBinary (n : nat)
| GTuple (l : list gspace)
| GDict (l : list (string * gspace))
| GOther.

(** Elements of those spaces; [C] is the type of the cells of a Box. *)
Inductive gelem (C : Type) :=
| EArr (cells : list C)
| EInt (z : Z)
| EInts (l : list Z)
| ETuple (l : list (gelem C))
| EDict (l : list (string * gelem C)).
Arguments EArr {C} cells.
Arguments EInt {C} z.
Arguments EInts {C} l.
Arguments ETuple {C} l.
Arguments EDict {C} l.

(** [element[i]] with an integer index. *)
Definition elem_at {C} (e : gelem C) (i : nat) : res (gelem C) :=
  match e with
  | ETuple l => lget l i
  | EDict _ => Err KeyError
  | _ => Err TypeError
  end.

(** [element[k]] with a string key. *)
Definition elem_key {C} (e : gelem C) (k : string) : res (gelem C) :=
  match e with
  | EDict l => dgetE l k
  | _ => Err TypeError
  end.

(** ** Computations that update the domain and may raise, keeping the updates made before *)

Definition SM (S A : Type) := S -> S * res A.
Definition ret {S A} (a : A) : SM S A := fun s => (s, Ok a).
Definition fail {S A} (e : py_err) : SM S A := fun s => (s, Err e).
Definition lift {S A} (r : res A) : SM S A := fun s => (s, r).
Definition sbind {S A B} (m : SM S A) (f : A -> SM S B) : SM S B :=
  fun s => match m s with
           | (s', Ok a) => f a s'
           | (s', Err e) => (s', Err e)
           end.
Notation "'let!' x ':=' r 'in' k" := (sbind r (fun x => k))
  (at level 200, x name, r at level 100, k at level 200, right associativity).

(** ** The two traversals shared by BEE1 and BEE2 *)

Section Traverse.
  Context {S C : Type}.
  (** the body of the loop over the cells of a Box *)
  Variable init_cell : C -> SM S unit.
  Variable cell_feats : nat -> C -> SM S (list Z).

  (** gym.py 271-277 and 385-389: the loop over the cells of a Box. *)
  Fixpoint init_cells (cs : list C) : SM S unit :=
    match cs with
    | [] => ret tt
    | c :: r => let! _ := init_cell c in init_cells r
    end.

  (** gym.py 281-283 and 393-395: [for k, s in space.spaces] iterates over the KEYS of the dictionary
      of sub-spaces and unpacks each key into two one-character strings; a key that does not have
      exactly two characters raises [ValueError]; otherwise [state[k]] is looked up with the first
      character, and the recursive call on the second character (a string, not a space) raises
      [RuntimeError]. *)
  Definition init_dict (kvs : list (string * gspace)) (e : gelem C) : SM S unit :=
    match kvs with
    | [] => ret tt
    | (String a (String b EmptyString), _) :: _ =>
        let! _ := lift (elem_key e (String a EmptyString)) in fail RuntimeError
    | _ :: _ => fail ValueError
    end.

  (** gym.py 269-285 [_init_bee1_features] and 383-397 [_init_bee2_features]: same shape, different
      treatment of a cell. *)
  Fixpoint init_feats (sp : gspace) (e : gelem C) : SM S unit :=
    match sp with
    | GBox _ => match e with EArr cs => init_cells cs | _ => fail AttributeError end
    | GTuple sps =>
        (fix go (sps : list gspace) (i : nat) : SM S unit :=
           match sps with
           | [] => ret tt
           | s :: r => let! x := lift (elem_at e i) in
                       let! _ := init_feats s x in go r (i + 1)
           end) sps 0
    | GDict kvs => init_dict kvs e
    | _ => fail RuntimeError
    end.

  (** gym.py 299-320 and 411-414: the loop over the cells, [index] running and [features += …]. *)
  Fixpoint cells_feats (cs : list C) (index : nat) (acc : list Z) : SM S (nat * list Z) :=
    match cs with
    | [] => ret (index, acc)
    | c :: r => let! cf := cell_feats index c in cells_feats r (index + 1) (acc ++ cf)
    end.

  (** gym.py 295-343 [_bee1_features] and 407-437 [_bee2_features]: same shape. *)
  Fixpoint feats (sp : gspace) (e : gelem C) (start : nat) : SM S (nat * list Z) :=
    match sp with
    | GBox _ => match e with EArr cs => cells_feats cs start [] | _ => fail AttributeError end
    | GDiscrete _ => match e with EInt z => ret (start, [z]) | _ => fail TypeError end
    | GMultiDiscrete _ | GMultiBinary _ =>
        match e with EInts l => ret (start, l) | _ => fail TypeError end
    | GTuple sps =>
        (fix go (sps : list gspace) (i index : nat) (acc : list Z) : SM S (nat * list Z) :=
           match sps with
           | [] => ret (index, acc)
           | s :: r => let! x := lift (elem_at e i) in
                       let! p := feats s x index in go r (i + 1) (fst p) (acc ++ snd p)
           end) sps 0 start []
    | GDict kvs =>
        (fix go (kvs : list (string * gspace)) (index : nat) (acc : list Z) : SM S (nat * list Z) :=
           match kvs with
           | [] => ret (index, acc)
           | (k, s) :: r => let! x := lift (elem_key e k) in
                            let! p := feats s x index in go r (fst p) (acc ++ snd p)
           end) kvs start []
    | GOther => fail RuntimeError
    end.
End Traverse.

(** ** The domain's feature tables *)

(** gym.py 254-257: [_init_continuous_state_variables] and [_feature_increments] ([N]: the class of
    the nodes stored in the latter). *)
Record tables (N : Type) := Tables { t_vars : list num; t_incs : list N }.
Arguments Tables {N} t_vars t_incs.

(** gym.py 255-256 and 259-261 [_reset_features]. *)
Definition empty_tables {N} : tables N := Tables [] [].

(** ** BEE1 *)

(** gym.py 263-267 [BEE1Node]: reference, increments, children. *)
Inductive node1 := Node1 (ref : num) (incs : list num) (children : list node1).
Definition new1 (ref : num) : node1 := Node1 ref [Num 0] [].

(** gym.py 308-318: the loop over the fidelity levels; returns the (updated) node and the features. *)
Fixpoint walk1 (f : nat) (sign : Z) (n : node1) (cell : num) : res (node1 * list Z) :=
  match f with
  | 0 => Ok (n, [])
  | S f' =>
      match n with
      | Node1 ref incs children =>
          let v := nscale sign (nsub cell ref) in
          let i := bisect_left incs v in
          let fi := (sign * Z.of_nat i)%Z in
          if length incs <=? i then
            (* 311-316: [node.increments[i-1]] is read after the append, with Python's index -1 *)
            let incs' := incs ++ [v] in
            let* prev := lget incs' (match i with 0 => length incs | S j => j end) in
            Ok (Node1 ref incs' (children ++ [new1 (nadd ref (nscale sign prev))]),
                fi :: repeat 0%Z f')
          else if 0 <? i then
            (* 317-318 *)
            let* c := lget children (i - 1) in
            let* p := walk1 f' sign c cell in
            let* children' := lput children (i - 1) (fst p) in
            Ok (Node1 ref incs children', fi :: snd p)
          else
            let* p := walk1 f' sign n cell in
            Ok (fst p, fi :: snd p)
      end
  end.

(** gym.py 271-277: two nodes (positive and negative increments) per cell. *)
Definition init_cell1 (c : num) : SM (tables node1) unit :=
  fun t => (Tables (t_vars t ++ [c]) (t_incs t ++ [new1 c] ++ [new1 c]), Ok tt).

(** gym.py 300-320: one cell. *)
Definition cell_feats1 (fidelity : Z) (index : nat) (c : num) : SM (tables node1) (list Z) :=
  fun t =>
    let r :=
      let* x0 := lget (t_vars t) index in
      let slot := if ngt c x0 then 2 * index else 2 * index + 1 in
      let sign := if ngt c x0 then 1%Z else (-1)%Z in
      let* n := lget (t_incs t) slot in
      let* p := walk1 (Z.to_nat fidelity) sign n c in
      let* incs := lput (t_incs t) slot (fst p) in
      Ok (incs, snd p) in
    match r with
    | Ok (incs, cf) => (Tables (t_vars t) incs, Ok cf)
    | Err e => (t, Err e)
    end.

(** gym.py 287-293 [bee1_features]. *)
Definition bee1_features (fidelity : Z) (sp : gspace) (e : gelem num) : SM (tables node1) (list Z) :=
  let! _ := (fun t => if length (t_incs t) =? 0 then init_feats init_cell1 sp e t else (t, Ok tt)) in
  let! p := feats (cell_feats1 fidelity) sp e 0 in
  ret (snd p).

(** ** BEE2 *)

(** gym.py 345-350 [BEE2Node]: the intervals [I], [llb], [gub], [children]. *)
Inductive node2 := Node2 (I : list (num * num)) (llb gub : num) (children : list node2).
(** A fresh node; [llb] and [gub] are [None] in the code and never read before being assigned. *)
Definition new2 : node2 := Node2 [] NaN NaN [].

(** gym.py 371-372: the first interval containing [x]. *)
Fixpoint find_interval (l : list (num * num)) (x : num) (k : nat) : option nat :=
  match l with
  | [] => None
  | (a, b) :: r => if nle a x && nle x b then Some k else find_interval r x (k + 1)
  end.

(** gym.py 352-378 [BEE2Node.eval]. *)
Fixpoint eval2 (level : nat) (n : node2) (x : num) : res (node2 * list Z) :=
  match n with
  | Node2 iv llb gub ch =>
      let marks := repeat (-1)%Z level in
      if length iv =? 0 then
        Ok (Node2 [(x, x)] x x [new2], 0%Z :: marks)
      else if nlt x llb then
        let iv' := iv ++ [(x, llb)] in
        Ok (Node2 iv' x gub (ch ++ [new2]), (Z.of_nat (length iv') - 1)%Z :: marks)
      else if ngt x gub then
        let iv' := iv ++ [(gub, x)] in
        Ok (Node2 iv' llb x (ch ++ [new2]), (Z.of_nat (length iv') - 1)%Z :: marks)
      else
        match find_interval iv x 0 with
        | Some k =>
            match level with
            | 0 => Ok (n, [Z.of_nat k])
            | S level' =>
                let* c := lget ch k in
                let* p := eval2 level' c x in
                let* ch' := lput ch k (fst p) in
                Ok (Node2 iv llb gub ch', Z.of_nat k :: snd p)
            end
        | None => Err RuntimeError
        end
  end.

(** gym.py 385-389: a node per cell, evaluated once on the cell of the first state, at level 0. *)
Definition init_cell2 (c : num) : SM (tables node2) unit :=
  fun t => match eval2 0 new2 c with
           | Ok (n, _) => (Tables (t_vars t ++ [c]) (t_incs t ++ [n]), Ok tt)
           | Err e => (Tables (t_vars t ++ [c]) (t_incs t ++ [new2]), Err e)
           end.

(** gym.py 412-414: one cell. *)
Definition cell_feats2 (fidelity : Z) (index : nat) (c : num) : SM (tables node2) (list Z) :=
  fun t =>
    let r :=
      let* n := lget (t_incs t) index in
      let* p := eval2 (Z.to_nat (fidelity - 1)) n c in
      let* incs := lput (t_incs t) index (fst p) in
      Ok (incs, snd p) in
    match r with
    | Ok (incs, cf) => (Tables (t_vars t) incs, Ok cf)
    | Err e => (t, Err e)
    end.

(** gym.py 399-405 [bee2_features]. *)
Definition bee2_features (fidelity : Z) (sp : gspace) (e : gelem num) : SM (tables node2) (list Z) :=
  let! _ := (fun t => if length (t_incs t) =? 0 then init_feats init_cell2 sp e t else (t, Ok tt)) in
  let! p := feats (cell_feats2 fidelity) sp e 0 in
  ret (snd p).

(** ** Binary features *)

(** The binary digits of a positive number, most significant first. *)
Fixpoint pos_bits (p : positive) : list bool :=
  match p with
  | xH => [true]
  | xO q => pos_bits q ++ [false]
  | xI q => pos_bits q ++ [true]
  end.

(** The characters of [bin(z)[2:]] compared with '1': for a negative [z] the string is "-0b…", so two
    characters are dropped and the 'b' stays in front. *)
Definition bin_digits (z : Z) : list bool :=
  match z with
  | Z0 => [false]
  | Zpos p => pos_bits p
  | Zneg p => false :: pos_bits p
  end.

(** ['0' * (w - len(s)) + s]. *)
Definition zpad (w : nat) (s : list bool) : list bool := repeat false (w - length s) ++ s.

(** gym.py 463: the number of binary digits of the bit pattern of +infinity (0x7f800000). *)
Definition maxlen : nat := length (bin_digits 2139095040).

(** gym.py 464-478: one cell, given by its IEEE single-precision bit pattern read as a signed 32-bit
    integer ([struct.unpack('!i', struct.pack('!f', cell))[0]]); for a negative pattern three
    characters "-0b" are dropped. *)
Definition box_bits (pattern : Z) : list bool :=
  (if (pattern <? 0)%Z then true else false) :: zpad maxlen (bin_digits (Z.abs pattern)).

(** gym.py 483-489 and 494-497: an integer of a Discrete space with [n] values. *)
Definition int_bits (n e : Z) : list bool := zpad (length (bin_digits (n - 1))) (bin_digits e).

(** gym.py 493-497: [for i in range(len(space.nvec)): … element[i]]. *)
Fixpoint ints_bits (nvec l : list Z) : res (list bool) :=
  match nvec, l with
  | [], _ => Ok []
  | _ :: _, [] => Err IndexError
  | n :: nr, e :: r => let* t := ints_bits nr r in Ok (int_bits n e ++ t)
  end.

(** gym.py 458-517 [_binary_features]; [for k, v in space.spaces] (512) unpacks the keys as above. *)
Fixpoint binary_feats (sp : gspace) (e : gelem Z) : res (list bool) :=
  match sp with
  | GBox _ => match e with EArr cs => Ok (flat_map box_bits cs) | _ => Err TypeError end
  | GDiscrete n => match e with EInt z => Ok (int_bits n z) | _ => Err TypeError end
  | GMultiDiscrete nvec => match e with EInts l => ints_bits nvec l | _ => Err TypeError end
  | GMultiBinary _ => match e with EInts l => Ok (map (fun b => negb (b =? 0)%Z) l) | _ => Err TypeError end
  | GTuple sps =>
      (fix go (sps : list gspace) (i : nat) : res (list bool) :=
         match sps with
         | [] => Ok []
         | s :: r => let* x := elem_at e i in
                     let* l := binary_feats s x in
                     let* t := go r (i + 1) in Ok (l ++ t)
         end) sps 0
  | GDict kvs =>
      match kvs with
      | [] => Ok []
      | (String a (String b EmptyString), _) :: _ =>
          let* _ := elem_key e (String a EmptyString) in Err RuntimeError
      | _ :: _ => Err ValueError
      end
  | GOther => Err RuntimeError
  end.

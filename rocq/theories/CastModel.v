(** Model of the casting machinery of skdecide/core.py (34-46, 559-655). *)
From Coq Require Import String.
From Coq Require Import List Bool Arith ZArith QArith.
From Verif Require Import Py.
Import ListNotations.
Set Implicit Arguments.
Open Scope nat_scope.

(** The Python types that can head a hint: the five constructors of [cast_dict], the Castable
    classes (Distribution, EnvironmentOutcome/TransitionOutcome) and any other class. *)
Inductive ty := TUnion | TMemory | TStrDict | TList | TOptional | TDist | TOutcome | TOther (n : nat).

(** core.py:34-39 [Tree(type, sub)] *)
Inductive tree := Tree (t : ty) (sub : list tree).

(** Python values, as far as casting looks at them.  [PMem maxlen l] is a Memory (deque),
    oldest element first.  [PTV] is a TransitionValue, [PAtom] anything opaque. *)
Inductive pv :=
| PNone
| PAtom (n : nat)
| PTV (reward : Z)
| PMem (maxlen : option nat) (l : list pv)
| PDict (l : list (string * pv))
| PList (l : list pv)
| PDiscrete (values : list (pv * Q))
| PSingle (value : pv)
| POutcome (observation value : pv) (termination : bool) (info : pv).

Definition ty_eqb (a b : ty) : bool :=
  match a, b with
  | TUnion, TUnion | TMemory, TMemory | TStrDict, TStrDict | TList, TList
  | TOptional, TOptional | TDist, TDist | TOutcome, TOutcome => true
  | TOther n, TOther m => Nat.eqb n m
  | _, _ => false
  end.

(** core.py:560-575: the keys of [cast_dict] *)
Definition in_cast_dict (s d : ty) : bool :=
  match s, d with
  | TMemory, TUnion | TUnion, TMemory | TMemory, TMemory
  | TStrDict, TUnion | TUnion, TStrDict | TStrDict, TStrDict
  | TList, TUnion | TUnion, TList | TList, TList
  | TUnion, TUnion | TOptional, TOptional => true
  | _, _ => false
  end.

(** core.py:603-613 [cast_needed] ([any] over the indices of the source subtrees). *)
Fixpoint cast_needed (s d : tree) {struct s} : res bool :=
  match s, d with
  | Tree ts ss, Tree td sd =>
      if negb (ty_eqb ts td) && in_cast_dict ts td then Ok true
      else
        (fix any (ss sd : list tree) {struct ss} : res bool :=
           match ss with
           | [] => Ok false
           | x :: r =>
               match sd with
               | [] => Err IndexError
               | y :: r' => let* b := cast_needed x y in if b then Ok true else any r r'
               end
           end) ss sd
  end.

(** core.py:337-342: the constructor of EnvironmentOutcome called by [_cast]; [value]/[info] may
    be Python None, which is replaced by defaults (a per-key dictionary when the observation is
    a dictionary). *)
Definition mk_POutcome (obs value : pv) (term : bool) (info : pv) : pv :=
  let value' := match value with
                | PNone => match obs with
                           | PDict l => PDict (map (fun kv => (fst kv, PTV 0)) l)
                           | _ => PTV 0
                           end
                | v => v
                end in
  let info' := match info with
               | PNone => match obs with
                          | PDict l => PDict (map (fun kv => (fst kv, PNone)) l)
                          | _ => PNone
                          end
               | i => i
               end in
  POutcome obs value' term info'.

(** core.py:616-622 [cast], with the lambdas of [cast_dict] (560-575), [default_cast] (577) and
    the [_cast] methods of DiscreteDistribution (229-230), SingleValueDistribution (258-259) and
    EnvironmentOutcome (344-347).  [obj[0]] raises IndexError on an empty sequence,
    [next(iter(d.values()))] raises StopIteration on an empty dictionary, and indexing an object
    of the wrong kind is a TypeError. *)
Fixpoint cast (s d : tree) (obj : pv) {struct s} : res pv :=
  match s, d with
  | Tree ts ss, Tree td sd =>
      let sub (i : nat) (x : pv) : res pv :=
        match ss, sd with
        | s0 :: s', d0 :: d' =>
            match i with
            | 0 => cast s0 d0 x
            | S i' =>
                match s', d' with
                | s1 :: s'', d1 :: d'' =>
                    match i' with
                    | 0 => cast s1 d1 x
                    | S _ => match s'', d'' with
                             | s2 :: _, d2 :: _ => cast s2 d2 x
                             | _, _ => Err IndexError
                             end
                    end
                | _, _ => Err IndexError
                end
            end
        | _, _ => Err IndexError
        end in
      let* needed := cast_needed (Tree ts ss) d in
      if negb needed then Ok obj else
      match ts, td with
      | TMemory, TUnion =>
          match obj with
          | PMem _ (x :: _) => sub 0 x
          | PMem _ [] => Err IndexError
          | _ => Err TypeError
          end
      | TUnion, TMemory => let* y := sub 0 obj in Ok (PMem None [y])
      | TMemory, TMemory =>
          match obj with
          | PMem _ l => let* l' := mapM (sub 0) l in Ok (PMem None l')
          | _ => Err TypeError
          end
      | TStrDict, TUnion =>
          match obj with
          | PDict ((_, x) :: _) => sub 0 x
          | PDict [] => Err StopIteration
          | _ => Err AttributeError
          end
      | TUnion, TStrDict => let* y := sub 0 obj in Ok (PDict [("agent"%string, y)])
      | TStrDict, TStrDict =>
          match obj with
          | PDict l => let* l' := mapM (fun kv => let* y := sub 0 (snd kv) in Ok (fst kv, y)) l in
                       Ok (PDict l')
          | _ => Err AttributeError
          end
      | TList, TUnion =>
          match obj with
          | PList (x :: _) => sub 0 x
          | PList [] => Err IndexError
          | _ => Err TypeError
          end
      | TUnion, TList => let* y := sub 0 obj in Ok (PList [y])
      | TList, TList =>
          match obj with
          | PList l => let* l' := mapM (sub 0) l in Ok (PList l')
          | _ => Err TypeError
          end
      | TUnion, TUnion => sub 0 obj
      | TOptional, TOptional => match obj with PNone => Ok PNone | _ => sub 0 obj end
      | _, _ =>   (* default_cast *)
          match obj with
          | PDiscrete l =>
              let* l' := mapM (fun ep => let* y := sub 0 (fst ep) in Ok (y, snd ep)) l in
              match l' with [] => Err IndexError | _ => Ok (PDiscrete l') end
          | PSingle v => let* y := sub 0 v in Ok (PSingle y)
          | POutcome o v t i =>
              let* o' := sub 0 o in
              let* v' := sub 1 v in
              let* i' := sub 2 i in
              Ok (mk_POutcome o' v' t i')
          | _ => Ok obj
          end
      end
  end.

(** core.py:625-648 [autocast] of a function at level [src] for callers at level [dst]: the hints
    are given already parsed, as (argument name, source tree, destination tree); the return hint
    is separate.  Arguments are cast destination->source, the result source->destination.
    (When nothing needs casting the code returns the function itself, which is the same thing,
    since [cast] is then the identity.) *)
Definition autocast (func : list (string * pv) -> res pv)
           (hints : list (string * (tree * tree))) (ret : tree * tree)
           (args : list (string * pv)) : res pv :=
  let* args' := mapM (fun kv =>
                        match dget hints (fst kv) with
                        | Some (s, d) =>
                            let* b := cast_needed s d in
                            if b then let* v := cast d s (snd kv) in Ok (fst kv, v) else Ok kv
                        | None => Ok kv
                        end) args in
  let* r := func args' in
  let* b := cast_needed (fst ret) (snd ret) in
  if b then cast (fst ret) (snd ret) r else Ok r.

(** ** parse_hint (core.py:580-593)

    A hint string without white space is a list of tokens: identifiers (with a flag telling
    whether they are prefixed by the hint object, as in [D.T_state]), brackets and commas.
    Identifiers are numbered; the look-up of the identifier in the module or in the domain is not
    modelled, so the parsed tree carries the identifier itself. *)
Inductive tok := Name (o : bool) (n : nat) | LB | RB | COMMA.
Inductive htree := HT (o : bool) (n : nat) (sub : list htree).

Definition is_lb (t : tok) : bool := match t with LB => true | _ => false end.
Definition is_rb (t : tok) : bool := match t with RB => true | _ => false end.

(** core.py:584 [str.split(',')] *)
Fixpoint split_comma (l : list tok) : list (list tok) :=
  match l with
  | [] => [[]]
  | COMMA :: r => [] :: split_comma r
  | t :: r => match split_comma r with
              | p :: ps => (t :: p) :: ps
              | [] => [[t]]
              end
  end.

(** core.py:585 [g.count('[') == g.count(']')] *)
Definition balanced (g : list tok) : bool :=
  Nat.eqb (length (filter is_lb g)) (length (filter is_rb g)).

(** core.py:580-593 [parse_hint].  The regular expression accepts a name alone or a name followed
    by '[', at least one character, and a final ']'; when it does not match, [match.groupdict()]
    is an AttributeError.  [fuel] bounds the recursion depth. *)
Fixpoint parse_hint (fuel : nat) (l : list tok) : res htree :=
  match fuel with
  | 0 => Err OutOfFuel
  | S fuel' =>
      match l with
      | [Name o n] => Ok (HT o n [])
      | Name o n :: LB :: rest =>
          let generics := removelast rest in
          match generics, last rest LB with
          | _ :: _, RB =>
              let pieces := split_comma generics in
              let* sub := (if forallb balanced pieces
                           then mapM (parse_hint fuel') pieces
                           else mapM (parse_hint fuel') [generics]) in
              Ok (HT o n sub)
          | _, _ => Err AttributeError
          end
      | _ => Err AttributeError
      end
  end.

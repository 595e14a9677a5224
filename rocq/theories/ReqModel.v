(** Model of skdecide/solvers.py 50-116: domain requirements of a solver.

    A class is a number; [bases c] is its tuple of base classes ([object] is the class without
    base).  [mro] lists are given (they are computed by the interpreter). *)
From Coq Require Import List Bool Arith.
From Verif Require Import Py.
Import ListNotations.

Section Req.
Variable bases : nat -> list nat.

(** solvers.py:61-71 [is_domain_builder]: walks up the single-inheritance chain; answers False as
    soon as a class has several bases. *)
Fixpoint is_domain_builder (fuel : nat) (c : nat) (remove_ancestors : list nat) : res (bool * list nat) :=
  match fuel with
  | 0 => Err OutOfFuel
  | S fuel' =>
      match bases c with
      | [] => Ok (true, remove_ancestors)
      | [b] => is_domain_builder fuel' b (remove_ancestors ++ [b])
      | _ => Ok (false, [])
      end
  end.

(** solvers.py:73-81: the loop over [sorted_ancestors]. *)
Fixpoint req_loop (fuel : nat) (cfuel : nat) (i : nat) (l : list nat) : res (list nat) :=
  match fuel with
  | 0 => Err OutOfFuel
  | S fuel' =>
      match nth_error l i with
      | None => Ok l
      | Some ancestor =>
          let* br := is_domain_builder cfuel ancestor [] in
          if fst br
          then req_loop fuel' cfuel (S i) (filter (fun a => negb (pymem a (snd br))) l)
          else req_loop fuel' cfuel i (pyremove ancestor l)
      end
  end.

(** solvers.py:50-81 [_get_domain_requirements]; [mro] is [T_domain.__mro__]. *)
Definition get_domain_requirements (cfuel : nat) (mro : list nat) : res (list nat) :=
  let sorted_ancestors := removelast mro in
  req_loop (S (length sorted_ancestors)) cfuel 0 sorted_ancestors.

(** solvers.py:101-116 [_check_domain]; [dmro] is the mro of the class of the domain, through
    which [isinstance] looks, and [additional] the answer of [_check_domain_additional]. *)
Definition check_domain (cfuel : nat) (mro dmro : list nat) (additional : bool) : res bool :=
  let* reqs := get_domain_requirements cfuel mro in
  Ok (forallb (fun req => pymem req dmro) reqs && additional).

End Req.

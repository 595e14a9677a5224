(** Vocabulary for the properties of the ILAO* solver, added to that of AoSpec.v and LrtdpSpec.v. *)
From Coq Require Import List Bool Arith QArith Qabs Permutation.
From Verif Require Import Py AoModel AoSpec IlaoModel.
Import ListNotations.

(** Iterating over a set visits each of its elements once. *)
Definition ifair {St} (cf : iconfig St) : Prop := forall l, Permutation (ic_order cf l) l.

(** The graphs that calls to [solve], none of them from a goal state, leave in a new solver. *)
Inductive isession {St A} {ES : PyEq St} (p : mdp St A) (cf : iconfig St) : igraph St A -> Prop :=
| isession_new : isession p cf []
| isession_solve : forall g fuel s g', isession p cf g -> m_goal p s = false -> ilao_solve fuel p cf g s = Ok g' -> isession p cf g'.

Definition ianswers {St A} {ES : PyEq St} (g : igraph St A) (s : St) : option A :=
  match ilao_best_action g s with Ok a => Some a | Err _ => None end.

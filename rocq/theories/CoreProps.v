(** C01, C02, C05, C11: statements about TransitionValue, outcomes, BoundConstraint and
    match_solvers. *)
From Coq Require Import String.
From Coq Require Import List Bool Arith ZArith Lia.
From Verif Require Import Py CoreModel CoreProofs.
Import ListNotations.
Open Scope Z_scope.

(** ** C01 *)

(** For any value type with an involutive minus fixing zero. *)
Theorem C01_reward_is_minus_cost : forall V (zero : V) (neg : V -> V),
  (forall x, neg (neg x) = x) -> neg zero = zero ->
  forall reward cost,
    let v := TransitionValue zero neg reward cost in
    tv_cost v = neg (tv_reward v) /\ tv_reward v = neg (tv_cost v).
Proof. exact tv_consistent. Qed.

(** What is given is kept: the reward if there is one, else the cost, else both are zero. *)
Theorem C01_given_value_kept : forall V (zero : V) (neg : V -> V) reward cost,
  let v := TransitionValue zero neg reward cost in
  (forall r, reward = Some r -> tv_reward v = r) /\
  (forall c, reward = None -> cost = Some c -> tv_cost v = c) /\
  (reward = None -> cost = None -> tv_reward v = zero /\ tv_cost v = zero).
Proof.
  intros V z n r c v; subst v. repeat split; intros; subst; reflexivity.
Qed.

(** Integers as an instance: -5 reward is 5 cost, whichever way it is given. *)
Example C01_example :
  TransitionValue 0 Z.opp (Some (-5)) None = TransitionValue 0 Z.opp None (Some 5)
  /\ TransitionValue 0 Z.opp (Some 3) (Some 8) = TV 3 (-3).
Proof. split; reflexivity. Qed.
Example C01_hypotheses_Z : (forall x, - - x = x) /\ - 0 = 0.
Proof. split; [intros; lia|reflexivity]. Qed.

(** ** C02 *)

(** The agents of a multi-agent object. *)
Definition agents {K X} (m : multi K X) : option (list K) :=
  match m with MDict d => Some (map fst d) | MOne _ => None end.

(** Default value: same agents as the subject (or single), every entry with zero reward and
    zero cost; default info likewise with every entry None; everything given is kept. *)
Theorem C02_defaults : forall V (zero : V) neg K O I (subj : multi K O) value term info,
  let o := @mk_outcome V zero neg K O I subj value term info in
  oc_subject o = subj /\ oc_termination o = term /\
  (forall v, value = Some v -> oc_value o = v) /\
  (forall i, info = Some i -> oc_info o = i) /\
  (value = None ->
     agents (oc_value o) = agents subj /\
     (forall v, (oc_value o = MOne v \/ exists d k, oc_value o = MDict d /\ In (k, v) d) ->
                tv_reward v = zero /\ tv_cost v = zero)) /\
  (info = None ->
     agents (oc_info o) = agents subj /\
     (forall i, (oc_info o = MOne i \/ exists d k, oc_info o = MDict d /\ In (k, i) d) -> i = None)).
Proof.
  intros V zero neg K O I subj value term info o; subst o.
  repeat split; intros; subst; try reflexivity.
  - destruct subj; simpl; [rewrite map_map|]; reflexivity.
  - destruct subj as [d|x]; simpl in *.
    + destruct H0 as [E|(d' & k & E & HI)]; [discriminate|].
      inversion E; subst. apply in_map_iff in HI. destruct HI as (p & E2 & _).
      inversion E2; reflexivity.
    + destruct H0 as [E|(d' & k & E & HI)]; [inversion E; reflexivity|discriminate].
  - destruct subj as [d|x]; simpl in *.
    + destruct H0 as [E|(d' & k & E & HI)]; [discriminate|].
      inversion E; subst. apply in_map_iff in HI. destruct HI as (p & E2 & _).
      inversion E2; reflexivity.
    + destruct H0 as [E|(d' & k & E & HI)]; [inversion E; reflexivity|discriminate].
  - destruct subj; simpl; [rewrite map_map|]; reflexivity.
  - destruct subj as [d|x]; simpl in *.
    + destruct H0 as [E|(d' & k & E & HI)]; [discriminate|].
      inversion E; subst. apply in_map_iff in HI. destruct HI as (p & E2 & _).
      inversion E2; reflexivity.
    + destruct H0 as [E|(d' & k & E & HI)]; [inversion E; reflexivity|discriminate].
Qed.

Example C02_example :
  let o := @mk_outcome Z 0 Z.opp string nat nat
             (MDict [("p1"%string, 7%nat); ("p2"%string, 9%nat)]) None true None in
  oc_value o = MDict [("p1"%string, TV 0 0); ("p2"%string, TV 0 0)] /\
  oc_info o = MDict [("p1"%string, None); ("p2"%string, None)].
Proof. split; reflexivity. Qed.

(** ** C05 *)

(** The meaning of the four symbols, over the integers. *)
Definition holds (sym : string) (v b : Z) : Prop :=
  (sym = "<"%string /\ v < b) \/ (sym = "<="%string /\ v <= b) \/
  (sym = ">"%string /\ v > b) \/ (sym = ">="%string /\ v >= b).

Theorem C05_check_iff_inequality : forall M A S (ev : M -> A -> option S -> Z) sym b dep c,
  BoundConstraint Z.ltb Z.leb ev sym b dep = Ok c ->
  bc_get_inequality c = sym /\ bc_get_bound c = b /\
  forall m a s, (bc_check_call c m a s = true <-> holds sym (ev m a s) b)
                /\ bc_evaluate_call c m a s = ev m a s.
Proof.
  intros M A S ev sym b dep c H. unfold BoundConstraint in H.
  destruct (String.eqb_spec sym "<"); [|destruct (String.eqb_spec sym "<=");
    [|destruct (String.eqb_spec sym ">"); [|destruct (String.eqb_spec sym ">="); [|discriminate]]]];
    inversion H; subst; clear H; (split; [reflexivity|split; [reflexivity|]]);
    intros m a s; (split; [|reflexivity]); unfold bc_check_call, bc_evaluate_call, holds; simpl.
  - rewrite Z.ltb_lt. split; [auto|]. intros [[_ H]|[[E _]|[[E _]|[E _]]]]; try discriminate; auto.
  - rewrite Z.leb_le. split; [auto|]. intros [[E _]|[[_ H]|[[E _]|[E _]]]]; try discriminate; auto.
  - rewrite Z.ltb_lt. split; [right; right; left; split; [auto|lia]|].
    intros [[E _]|[[E _]|[[_ H]|[E _]]]]; try discriminate; lia.
  - rewrite Z.leb_le. split; [right; right; right; split; [auto|lia]|].
    intros [[E _]|[[E _]|[[E _]|[_ H]]]]; try discriminate; lia.
Qed.

(** Construction succeeds exactly for the four symbols; otherwise AssertionError. *)
Theorem C05_symbols_checked : forall M A S (ev : M -> A -> option S -> Z) sym b dep,
  (In sym ["<"; "<="; ">"; ">="]%string ->
     exists c, BoundConstraint Z.ltb Z.leb ev sym b dep = Ok c) /\
  (~ In sym ["<"; "<="; ">"; ">="]%string ->
     BoundConstraint Z.ltb Z.leb ev sym b dep = Err AssertionError).
Proof.
  intros. unfold BoundConstraint. split.
  - intros [E|[E|[E|[E|[]]]]]; subst; simpl; eauto.
  - intros N.
    destruct (String.eqb_spec sym "<"); [elim N; simpl; auto|].
    destruct (String.eqb_spec sym "<="); [elim N; simpl; auto|].
    destruct (String.eqb_spec sym ">"); [elim N; simpl; auto|].
    destruct (String.eqb_spec sym ">="); [elim N; simpl; auto 6|]. reflexivity.
Qed.

(** A cast constraint answers at the new level what the original answers on the cast-back
    arguments: casting never changes which transitions are allowed. *)
Theorem C05_cast_preserves_check : forall M A S M' A' S' (ev : M -> A -> option S -> Z) sym b dep c
  (cm : M' -> M) (ca : A' -> A) (cs : option S' -> option S),
  BoundConstraint Z.ltb Z.leb ev sym b dep = Ok c ->
  exists c', (let '(ev', sym', b', dep') := bc_cast c cm ca cs in
              BoundConstraint Z.ltb Z.leb ev' sym' b' dep') = Ok c' /\
  forall m a s, bc_check_call c' m a s = bc_check_call c (cm m) (ca a) (cs s).
Proof.
  intros M A S M' A' S' ev sym b dep c cm ca cs H.
  unfold BoundConstraint in H. unfold bc_cast, BoundConstraint.
  destruct (String.eqb_spec sym "<"); [|destruct (String.eqb_spec sym "<=");
    [|destruct (String.eqb_spec sym ">"); [|destruct (String.eqb_spec sym ">="); [|discriminate]]]];
    inversion H; subst; clear H; simpl; eexists; (split; [reflexivity|]); reflexivity.
Qed.

Example C05_example : exists c,
  BoundConstraint Z.ltb Z.leb (fun (m a : Z) (_ : option Z) => m + a) ">=" 5 true = Ok c /\
  bc_check_call c 2 3 None = true /\ bc_check_call c 2 2 None = false.
Proof. eexists. split; [reflexivity|split; reflexivity]. Qed.

(** ** C11 *)

(** The result lists exactly the accepting candidates, in the given order: it is the
    subsequence of the candidates selected by the check. *)
Inductive selects {S} (P : S -> Prop) : list S -> list S -> Prop :=
| sel_nil : selects P [] []
| sel_take : forall x l r, P x -> selects P l r -> selects P (x :: l) (x :: r)
| sel_skip : forall x l r, ~ P x -> selects P l r -> selects P (x :: l) r.

Theorem C11_match_solvers_exact : forall D S (chk : S -> D -> bool) d cands reg,
  selects (fun s => chk s d = true) cands (match_solvers chk d (Some cands) reg) /\
  selects (fun s => chk s d = true)
          (flat_map (fun o => match o with Some s => [s] | None => [] end) reg)
          (match_solvers chk d None reg).
Proof.
  intros D S chk d cands reg.
  assert (G : forall l, selects (fun s => chk s d = true) l (match_solvers_loop chk d l)).
  { intros l. unfold match_solvers_loop. rewrite match_loop_filter. simpl.
    induction l as [|x l IH]; simpl; [constructor|].
    destruct (chk x d) eqn:E; constructor; auto. congruence. }
  split; apply G.
Qed.

Example C11_example :
  match_solvers (fun s d => Z.leb s d) 3 None [Some 5; Some 2; None; Some 3; Some 2] = [2; 3; 2].
Proof. reflexivity. Qed.

Print Assumptions C01_reward_is_minus_cost.
Print Assumptions C01_given_value_kept.
Print Assumptions C02_defaults.
Print Assumptions C05_check_iff_inequality.
Print Assumptions C05_symbols_checked.
Print Assumptions C05_cast_preserves_check.
Print Assumptions C11_match_solvers_exact.

(** C146: reading project scheduling instances. *)
From Coq Require Import String Ascii.
From Coq Require Import List Bool Arith ZArith Lia.
From Verif Require Import Py PyList SgsModel PsplibModel.
Import ListNotations.
Local Open Scope nat_scope.

Section Dict.
Context {K V : Type} {EK : PyEq K}.
Lemma dset_new : forall (d : list (K * V)) k v, ~ In k (dkeys d) -> dset d k v = d ++ [(k, v)].
Proof.
  induction d as [|[k' v'] d IH]; intros k v N; [reflexivity|]. cbn [dset]. destruct (pyeqb_spec k k') as [->|Ne]; [exfalso; apply N; now left|].
  cbn [app]. rewrite IH; [reflexivity|]. intros I. apply N. now right.
Qed.
Lemma dset_last : forall (d : list (K * V)) k v w, ~ In k (dkeys d) -> dset (d ++ [(k, v)]) k w = d ++ [(k, w)].
Proof.
  induction d as [|[k' v'] d IH]; intros k v w N; cbn [app dset].
  - destruct (pyeqb_spec k k); [reflexivity|congruence].
  - destruct (pyeqb_spec k k') as [->|Ne]; [exfalso; apply N; now left|]. rewrite IH; [reflexivity|]. intros I. apply N. now right.
Qed.
Lemma dget_last : forall (d : list (K * V)) k v, ~ In k (dkeys d) -> dget (d ++ [(k, v)]) k = Some v.
Proof.
  induction d as [|[k' v'] d IH]; intros k v N; cbn [app dget].
  - destruct (pyeqb_spec k k); [reflexivity|congruence].
  - destruct (pyeqb_spec k k') as [->|Ne]; [exfalso; apply N; now left|]. apply IH. intros I. apply N. now right.
Qed.
End Dict.

Lemma mapM_lget : forall A (l : list A), mapM (lget l) (seq 0 (length l)) = Ok l.
Proof.
  intros A l. assert (G : forall pre, mapM (lget (pre ++ l)) (seq (length pre) (length l)) = Ok l); [|exact (G [])].
  induction l as [|x l IH]; intros pre; [reflexivity|]. cbn [length seq mapM].
  assert (E : lget (pre ++ x :: l) (length pre) = Ok x) by (apply lget_ok; rewrite nth_error_app2 by lia; rewrite Nat.sub_diag; reflexivity).
  rewrite E. cbn [bind]. specialize (IH (pre ++ [x])). rewrite app_length in IH. cbn [length] in IH. rewrite Nat.add_1_r, <- app_assoc in IH.
  change ([x] ++ l) with (x :: l) in IH. rewrite IH. reflexivity.
Qed.

(** A line of the section with the precedences: task, number of modes, number of successors, successors, and perhaps more *)
Definition precedence_line (row : list nat) (tl : nat * list nat) : Prop := exists modes more, row = fst tl :: modes :: length (snd tl) :: snd tl ++ more.

(** The successors are read as they were written. *)
Theorem C146_successors : forall rows succ, NoDup (map fst succ) -> Forall2 precedence_line rows succ -> read_successors rows = Ok succ.
Proof.
  intros rows succ N F. unfold read_successors.
  match goal with |- foldM ?f _ _ = _ => set (g := f) end.
  assert (G : forall d, NoDup (map fst (d ++ succ)) -> foldM g d rows = Ok (d ++ succ)); [|apply (G [] N)].
  clear N. induction F as [|row [t l] rows succ (modes & more & ->) F IH]; intros d N; [rewrite app_nil_r; reflexivity|].
  cbn [foldM]. unfold g at 1. cbn [fst snd lget nth_error bind skipn]. unfold lget. cbn [nth_error bind].
  rewrite firstn_app, Nat.sub_diag, firstn_all. cbn [firstn]. rewrite app_nil_r.
  assert (Nt : ~ In t (dkeys d)).
  { rewrite map_app in N. cbn [map fst] in N. apply NoDup_remove_2 in N. intros I. apply N. apply in_or_app. left. exact I. }
  rewrite dset_new by exact Nt. rewrite IH; rewrite <- app_assoc; [reflexivity|exact N].
Qed.

(** What is written of a mode: number, duration and the needs in the order of the resources *)
Definition entry := (nat * (nat * list nat))%type.
Definition tail_line (e : entry) : list nat := fst e :: fst (snd e) :: snd (snd e).
(** The lines of a task: its number only appears on the first one *)
Definition task_lines (te : nat * (entry * list entry)) : list (list nat) :=
  (fst te :: tail_line (fst (snd te))) :: map tail_line (snd (snd te)).
(** What was meant *)
Definition meant (names : list string) (e : entry) : nat * mode := (fst e, Mode (fst (snd e)) (combine names (map Z.of_nat (snd (snd e))))).
Definition meant_task (names : list string) (te : nat * (entry * list entry)) : nat * list (nat * mode) :=
  (fst te, map (meant names) (fst (snd te) :: snd (snd te))).
(** Every mode gives a need for every resource, and the modes of a task have different numbers. *)
Definition proper (names : list string) (te : nat * (entry * list entry)) : Prop :=
  (forall e, In e (fst (snd te) :: snd (snd te)) -> length (snd (snd e)) = length names) /\ NoDup (map fst (fst (snd te) :: snd (snd te))).

Section Modes.
Variable names : list string.
Lemma first_row : forall multi task d t e, length (snd (snd e)) = length names -> ~ In t (dkeys d) ->
  mode_row names (multi, (task, d)) (t :: tail_line e) = Ok (multi, (Some t, d ++ [(t, [meant names e])])).
Proof.
  intros multi task d t [m [dur us]] L N. cbn [fst snd] in L. unfold mode_row, tail_line, meant. cbn [fst snd].
  replace (length (t :: m :: dur :: us) =? 3 + length names) with true by (symmetry; apply Nat.eqb_eq; cbn [length]; lia).
  unfold lget at 1 2 3. cbn [nth_error bind skipn]. rewrite <- L, firstn_all, mapM_lget. cbn [bind].
  rewrite (proj2 (dget_None _ _) N). cbn [dset]. rewrite dset_new by exact N. reflexivity.
Qed.
Lemma next_row : forall multi d t ms e, length (snd (snd e)) = length names -> ~ In t (dkeys d) -> ~ In (fst e) (dkeys ms) ->
  mode_row names (multi, (Some t, d ++ [(t, ms)])) (tail_line e) = Ok (true, (Some t, d ++ [(t, ms ++ [meant names e])])).
Proof.
  intros multi d t ms [m [dur us]] L N M. cbn [fst snd] in L, M. unfold mode_row, tail_line, meant. cbn [fst snd].
  replace (length (m :: dur :: us) =? 3 + length names) with false by (symmetry; apply Nat.eqb_neq; cbn [length]; lia).
  unfold lget at 1 2. cbn [nth_error bind skipn]. rewrite (firstn_all2 us) by lia. rewrite <- L, mapM_lget. cbn [bind].
  rewrite dget_last by exact N. rewrite dset_last by exact N. rewrite dset_new by exact M. reflexivity.
Qed.
Lemma next_rows : forall es multi d t ms, (forall e, In e es -> length (snd (snd e)) = length names) -> ~ In t (dkeys d) -> NoDup (dkeys ms ++ map fst es) ->
  foldM (mode_row names) (multi, (Some t, d ++ [(t, ms)])) (map tail_line es) =
    Ok (multi || negb (length es =? 0), (Some t, d ++ [(t, ms ++ map (meant names) es)])).
Proof.
  induction es as [|e es IH]; intros multi d t ms L N M.
  - cbn [map foldM length negb Nat.eqb]. rewrite orb_false_r, app_nil_r. reflexivity.
  - cbn [map foldM]. assert (Me : ~ In (fst e) (dkeys ms)) by (cbn [map] in M; apply NoDup_remove_2 in M; intros I; apply M, in_or_app; auto).
    rewrite next_row; [|apply L; now left|exact N|exact Me]. cbn [bind]. rewrite IH; [|intros e' I; apply L; now right|exact N|].
    + cbn [length Nat.eqb negb orb]. rewrite orb_true_r, <- app_assoc. reflexivity.
    + unfold dkeys in *. rewrite map_app, <- app_assoc. exact M.
Qed.

(** The modes, durations and needs are read as they were written; the problem is multi-mode exactly when a task has more than one mode. *)
Theorem C146_modes : forall ts, NoDup (map fst ts) -> Forall (proper names) ts ->
  exists task, read_modes names (flat_map task_lines ts) = Ok (existsb (fun te => negb (length (snd (snd te)) =? 0)) ts, (task, map (meant_task names) ts)).
Proof.
  intros ts N F. unfold read_modes.
  assert (G : forall multi task d, NoDup (dkeys d ++ map fst ts) -> exists task', foldM (mode_row names) (multi, (task, d)) (flat_map task_lines ts) =
    Ok (multi || existsb (fun te => negb (length (snd (snd te)) =? 0)) ts, (task', d ++ map (meant_task names) ts))); [|exact (G false None [] N)].
  clear N. induction F as [|[t [e es]] ts [P1 P2] F IH]; intros multi task d N.
  - exists task. cbn. rewrite orb_false_r, app_nil_r. reflexivity.
  - cbn [fst snd] in P1, P2. assert (Nt : ~ In t (dkeys d)) by (cbn [map fst] in N; apply NoDup_remove_2 in N; intros I; apply N, in_or_app; auto).
    cbn [flat_map]. unfold task_lines at 1. cbn [fst snd app foldM]. rewrite first_row; [|apply P1; now left|exact Nt]. cbn [bind].
    rewrite foldM_app. rewrite next_rows; [|intros e' I; apply P1; now right|exact Nt|exact P2]. cbn [bind].
    destruct (IH (multi || negb (length es =? 0)) (Some t) (d ++ [(t, [meant names e] ++ map (meant names) es)])) as (task' & E).
    { unfold dkeys in *. rewrite map_app, <- app_assoc. exact N. }
    exists task'. etransitivity; [exact E|]. cbn [existsb snd map]. rewrite orb_assoc, <- app_assoc. reflexivity.
Qed.
End Modes.

(** The capacities are read as they were written, one name of two words for each number. *)
Theorem C146_resources : forall rs, NoDup (map (fun r => fst (fst r) ++ snd (fst r))%string rs) ->
  read_resources (flat_map (fun r => [fst (fst r); snd (fst r)]) rs) (map snd rs) = Ok (map (fun r => ((fst (fst r) ++ snd (fst r))%string, Z.of_nat (snd r))) rs).
Proof.
  intros rs N. unfold read_resources.
  match goal with |- foldM ?f _ _ = _ => set (g := f) end. rewrite map_length.
  assert (Len : forall l : list (string * string * nat), length (flat_map (fun r => [fst (fst r); snd (fst r)]) l) = 2 * length l) by (induction l; cbn [flat_map app length]; lia).
  set (out := fun l : list (string * string * nat) => map (fun r => ((fst (fst r) ++ snd (fst r))%string, Z.of_nat (snd r))) l).
  assert (G : forall post pre, rs = pre ++ post -> foldM g (out pre) (seq (length pre) (length post)) = Ok (out rs)); [|exact (G rs [] eq_refl)].
  induction post as [|[[a b] c] post IH]; intros pre E; [cbn; rewrite app_nil_r in E; subst; reflexivity|]. cbn [length seq foldM].
  assert (Gx : g (out pre) (length pre) = Ok (out (pre ++ [((a, b), c)]))).
  { unfold g. rewrite E, flat_map_app, map_app. cbn [flat_map map fst snd app].
    assert (E1 : forall i x l, i = 2 * length pre -> lget (flat_map (fun r : string * string * nat => [fst (fst r); snd (fst r)]) pre ++ x :: l) i = Ok x).
    { intros i x l ->. apply lget_ok. rewrite nth_error_app2 by (rewrite Len; lia). rewrite Len, Nat.sub_diag. reflexivity. }
    assert (E2 : forall i x y l, i = 2 * length pre + 1 -> lget (flat_map (fun r : string * string * nat => [fst (fst r); snd (fst r)]) pre ++ x :: y :: l) i = Ok y).
    { intros i x y l ->. apply lget_ok. rewrite nth_error_app2 by (rewrite Len; lia). rewrite Len. replace (2 * length pre + 1 - 2 * length pre) with 1 by lia. reflexivity. }
    assert (E3 : lget (map snd pre ++ c :: map snd post) (length pre) = Ok c).
    { apply lget_ok. rewrite nth_error_app2 by (rewrite map_length; lia). rewrite map_length, Nat.sub_diag. reflexivity. }
    rewrite (E1 _ _ _ eq_refl). cbn [bind]. rewrite (E2 _ _ _ _ eq_refl). cbn [bind]. rewrite E3. cbn [bind]. rewrite dset_new; [unfold out; rewrite map_app; reflexivity|].
    rewrite E, map_app in N. cbn [map fst snd] in N. apply NoDup_remove_2 in N. intros I. apply N. apply in_or_app. left. unfold dkeys, out in I. rewrite map_map in I. exact I. }
  rewrite Gx. cbn [bind]. specialize (IH (pre ++ [((a, b), c)])). rewrite app_length in IH. cbn [length] in IH. rewrite Nat.add_1_r in IH. apply IH. rewrite <- app_assoc. exact E.
Qed.

(** A whole instance *)
Theorem C146_instance : forall horizon rs rows succ ts, NoDup (map (fun r => fst (fst r) ++ snd (fst r))%string rs) -> NoDup (map fst succ) -> Forall2 precedence_line rows succ ->
  let names := map (fun r => fst (fst r) ++ snd (fst r))%string rs in NoDup (map fst ts) -> Forall (proper names) ts ->
  exists multi p, parse_psplib horizon (flat_map (fun r => [fst (fst r); snd (fst r)]) rs) (map snd rs) rows (flat_map task_lines ts) = Ok (multi, p) /\
    (multi = true <-> exists te, In te ts /\ snd (snd te) <> []) /\ p_res p = Constant (combine names (map (fun r => Z.of_nat (snd r)) rs)) /\
    p_modes p = map (meant_task names) ts /\ p_succ p = succ /\ p_horizon p = horizon /\
    forall q, In q (p_nonren p) <-> In q names /\ exists q', q = String "N" q'.
Proof.
  intros horizon rs rows succ ts N1 N2 F names N3 P. unfold parse_psplib. rewrite C146_resources by exact N1. cbn [bind]. rewrite (C146_successors _ _ N2 F). cbn [bind].
  assert (Kn : dkeys (map (fun r : string * string * nat => ((fst (fst r) ++ snd (fst r))%string, Z.of_nat (snd r))) rs) = names) by (unfold dkeys, names; rewrite map_map; reflexivity).
  rewrite Kn. destruct (C146_modes names ts N3 P) as (task & E). rewrite E. cbn [bind]. do 2 eexists. split; [reflexivity|]. cbn [p_res p_modes p_succ p_horizon p_nonren].
  split; [|split; [|split; [reflexivity|split; [reflexivity|split; [reflexivity|]]]]].
  - rewrite existsb_exists. split; intros (te & I & H); exists te; (split; [exact I|]); destruct (snd (snd te)); cbn in *; congruence.
  - f_equal. unfold names. clear. induction rs as [|r rs IH]; [reflexivity|]. cbn [map combine]. rewrite IH. reflexivity.
  - intros q. rewrite filter_In. split; intros [I H]; (split; [exact I|]).
    + unfold starts_with_N in H. destruct q as [|a q]; [discriminate|]. apply Ascii.eqb_eq in H. subst a. eauto.
    + destruct H as (q' & ->). reflexivity.
Qed.

Lemma index_at : forall x a b, ~ In x a -> line_index (a ++ x :: b) x = Ok (length a).
Proof.
  induction a as [|y a IH]; intros b N; cbn [app line_index length]; [rewrite String.eqb_refl; reflexivity|].
  rewrite (proj2 (String.eqb_neq y x)) by (intros ->; apply N; now left). rewrite IH; [reflexivity|]. intros I. apply N. now right.
Qed.
Lemma slice : forall (pre mid post : list string), mapM (lget (pre ++ mid ++ post)) (seq (length pre) (length mid)) = Ok mid.
Proof.
  intros pre mid. revert pre. induction mid as [|x mid IH]; intros pre post; [reflexivity|]. cbn [length seq mapM].
  assert (E : lget (pre ++ (x :: mid) ++ post) (length pre) = Ok x) by (apply lget_ok; rewrite nth_error_app2 by lia; rewrite Nat.sub_diag; reflexivity).
  rewrite E. cbn [bind]. specialize (IH (pre ++ [x]) post). rewrite app_length in IH. cbn [length] in IH. rewrite Nat.add_1_r, <- app_assoc in IH.
  change ([x] ++ mid ++ post) with ((x :: mid) ++ post) in IH. rewrite IH. reflexivity.
Qed.

(** The lines of a file: [a], the horizon, the resources [b], the precedences with a title, a separator, the requests with two lines of
    title, a separator and the capacities.  Each title only appears once before its section. *)
Theorem C146_sections : forall a horizon b title1 ps sep1 title2 title3 ds sep2 names numbers rest,
  let before1 := a ++ [horizon] in
  let before2 := before1 ++ "RESOURCES"%string :: b in
  let before3 := before2 ++ "PRECEDENCE RELATIONS:"%string :: title1 :: ps ++ [sep1] in
  let before4 := before3 ++ "REQUESTS/DURATIONS:"%string :: title2 :: title3 :: ds ++ [sep2] in
  ~ In "RESOURCES"%string before1 -> ~ In "PRECEDENCE RELATIONS:"%string before2 -> ~ In "REQUESTS/DURATIONS:"%string before3 -> ~ In "RESOURCEAVAILABILITIES:"%string before4 ->
  sections (before4 ++ "RESOURCEAVAILABILITIES:"%string :: names :: numbers :: rest) = Ok (Psplib horizon names numbers ps ds).
Proof.
  intros a horizon b title1 ps sep1 title2 title3 ds sep2 names numbers rest before1 before2 before3 before4 N1 N2 N3 N4.
  set (all := before4 ++ "RESOURCEAVAILABILITIES:"%string :: names :: numbers :: rest).
  assert (E4 : exists r, all = before4 ++ "RESOURCEAVAILABILITIES:"%string :: r) by (eexists; reflexivity).
  assert (E3 : exists r, all = before3 ++ "REQUESTS/DURATIONS:"%string :: r) by (eexists; unfold all, before4; rewrite <- app_assoc; reflexivity).
  assert (E2 : exists r, all = before2 ++ "PRECEDENCE RELATIONS:"%string :: r) by (destruct E3 as (r & ->); eexists; unfold before3; rewrite <- app_assoc; reflexivity).
  assert (E1 : exists r, all = before1 ++ "RESOURCES"%string :: r) by (destruct E2 as (r & ->); eexists; unfold before2; rewrite <- app_assoc; reflexivity).
  assert (I1 : line_index all "RESOURCES" = Ok (length before1)) by (destruct E1 as (r & ->); apply index_at; exact N1).
  assert (I2 : line_index all "PRECEDENCE RELATIONS:" = Ok (length before2)) by (destruct E2 as (r & ->); apply index_at; exact N2).
  assert (I3 : line_index all "REQUESTS/DURATIONS:" = Ok (length before3)) by (destruct E3 as (r & ->); apply index_at; exact N3).
  assert (I4 : line_index all "RESOURCEAVAILABILITIES:" = Ok (length before4)) by (destruct E4 as (r & ->); apply index_at; exact N4).
  unfold sections. rewrite I1, I2, I3, I4. cbn [bind].
  assert (H : line_before all (length before1) = Ok horizon).
  { destruct E1 as (r & ->). unfold before1. rewrite app_length. cbn [length]. rewrite Nat.add_1_r. cbn [line_before]. apply lget_ok. rewrite <- app_assoc.
    rewrite nth_error_app2 by lia. rewrite Nat.sub_diag. reflexivity. }
  rewrite H. cbn [bind].
  assert (A : forall j x, nth_error ("RESOURCEAVAILABILITIES:"%string :: names :: numbers :: rest) j = Some x -> lget all (length before4 + j) = Ok x).
  { intros j x Ej. apply lget_ok. unfold all. rewrite nth_error_app2 by lia. replace (length before4 + j - length before4) with j by lia. exact Ej. }
  rewrite (A 1 names eq_refl), (A 2 numbers eq_refl). cbn [bind].
  assert (L3 : length before3 - 1 - (length before2 + 2) = length ps) by (unfold before3; rewrite app_length; cbn [length]; rewrite app_length; cbn [length]; lia).
  assert (L4 : length before4 - 1 - (length before3 + 3) = length ds) by (unfold before4; rewrite app_length; cbn [length]; rewrite app_length; cbn [length]; lia).
  rewrite L3, L4.
  assert (S3 : mapM (lget all) (seq (length before2 + 2) (length ps)) = Ok ps).
  { destruct E3 as (r & ->). replace (length before2 + 2) with (length (before2 ++ ["PRECEDENCE RELATIONS:"%string; title1])) by (rewrite app_length; reflexivity).
    replace (before3 ++ "REQUESTS/DURATIONS:"%string :: r) with ((before2 ++ ["PRECEDENCE RELATIONS:"%string; title1]) ++ ps ++ (sep1 :: "REQUESTS/DURATIONS:"%string :: r)); [apply slice|].
    unfold before3. rewrite <- !app_assoc. cbn [app]. rewrite <- app_assoc. reflexivity. }
  assert (S4 : mapM (lget all) (seq (length before3 + 3) (length ds)) = Ok ds).
  { destruct E4 as (r & ->). replace (length before3 + 3) with (length (before3 ++ ["REQUESTS/DURATIONS:"%string; title2; title3])) by (rewrite app_length; reflexivity).
    replace (before4 ++ "RESOURCEAVAILABILITIES:"%string :: r) with ((before3 ++ ["REQUESTS/DURATIONS:"%string; title2; title3]) ++ ds ++ (sep2 :: "RESOURCEAVAILABILITIES:"%string :: r)); [apply slice|].
    unfold before4. rewrite <- !app_assoc. cbn [app]. rewrite <- app_assoc. reflexivity. }
  rewrite S3. cbn [bind]. rewrite S4. reflexivity.
Qed.

Local Open Scope string_scope.
Example C146_sections_ex :
  sections ["****"; "horizon : 8"; "RESOURCES"; "- renewable"; "****"; "PRECEDENCE RELATIONS:"; "jobnr."; "1 1 1 2"; "2 1 0"; "****"; "REQUESTS/DURATIONS:"; "jobnr."; "----";
    "1 1 0 0"; "2 1 3 1"; "****"; "RESOURCEAVAILABILITIES:"; "R 1"; "4"; "****"] = Ok (Psplib "horizon : 8" "R 1" "4" ["1 1 1 2"; "2 1 0"] ["1 1 0 0"; "2 1 3 1"]).
Proof. vm_compute. reflexivity. Qed.
Definition px_ts : list (nat * (entry * list entry)) := [(1, ((1, (0, [0; 0])), [])); (2, ((1, (3, [2; 0])), [(2, (5, [1; 4]))])); (3, ((1, (0, [0; 0])), []))].
Example C146_ex : Forall (proper ["R1"; "N1"]) px_ts /\ NoDup (map fst px_ts) /\ Forall2 precedence_line [[1; 1; 1; 2]; [2; 2; 1; 3]; [3; 1; 0]] [(1, [2]); (2, [3]); (3, [])] /\
  parse_psplib 8 ["R"; "1"; "N"; "1"] [4; 9] [[1; 1; 1; 2]; [2; 2; 1; 3]; [3; 1; 0]] [[1; 1; 0; 0; 0]; [2; 1; 3; 2; 0]; [2; 5; 1; 4]; [3; 1; 0; 0; 0]] =
    Ok (true, Rcpsp (Constant [("R1", 4%Z); ("N1", 9%Z)]) ["N1"]
      [(1, [(1, Mode 0 [("R1", 0%Z); ("N1", 0%Z)])]); (2, [(1, Mode 3 [("R1", 2%Z); ("N1", 0%Z)]); (2, Mode 5 [("R1", 1%Z); ("N1", 4%Z)])]);
       (3, [(1, Mode 0 [("R1", 0%Z); ("N1", 0%Z)])])] [(1, [2]); (2, [3]); (3, [])] 8 30) /\
  flat_map task_lines px_ts = [[1; 1; 0; 0; 0]; [2; 1; 3; 2; 0]; [2; 5; 1; 4]; [3; 1; 0; 0; 0]].
Proof.
  split; [|split; [|split; [|split; reflexivity]]].
  - repeat constructor; cbn; intuition (subst; try discriminate; reflexivity).
  - repeat constructor; cbn; intuition discriminate.
  - repeat constructor; eexists _, []; reflexivity.
Qed.

(** A line of a task with one number missing is not refused: it is read as another mode of the task before it, and its task has no mode. *)
Theorem C146_missing_refuted : exists names rows task ms, In [3; 1; 4; 1] rows /\ read_modes names rows = Ok (true, (task, ms)) /\ dget ms 3 = None /\
  exists d, dget ms 2 = Some d /\ dget d 3 = Some (Mode 1 (combine names [4; 1]%Z)).
Proof.
  exists ["R1"; "R2"], [[2; 1; 3; 2; 0]; [3; 1; 4; 1]]. do 2 eexists. split; [right; now left|]. split; [vm_compute; reflexivity|]. split; [reflexivity|]. eexists. split; reflexivity.
Qed.

Print Assumptions C146_successors.
Print Assumptions C146_modes.
Print Assumptions C146_resources.
Print Assumptions C146_instance.
Print Assumptions C146_sections.
Print Assumptions C146_missing_refuted.

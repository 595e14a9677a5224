(** Proofs about the travelling thief. *)
From Coq Require Import List Bool Arith ZArith QArith Lia Lqa.
From Verif Require Import Py PyList TtpModel TtpSpec.
Import ListNotations.
Open Scope nat_scope.

Section P.
Variable root : Z -> Q.
Variable p : ttp.

(** ** Loading *)
Definition at_city (f : item -> Z) (z : list Z) (its : list item) (c : nat) : Z :=
  sumZ (map (fun x : Z * item => if (fst x =? Z.of_nat c)%Z then f (snd x) else 0%Z) (combine z its)).

Lemma filter_map_S : forall (g : nat -> bool) l, filter g (map S l) = map S (filter (fun j => g (S j)) l).
Proof. induction l as [|a l IH]; cbn; [easy|]. destruct (g (S a)); cbn; now rewrite IH. Qed.

Lemma foldM_map_S : forall S (f : S -> nat -> res S) l s,
  foldM f s (map Datatypes.S l) = foldM (fun s j => f s (Datatypes.S j)) s l.
Proof. induction l as [|a l IH]; intros; cbn [foldM map]; [easy|]. destruct (f s (Datatypes.S a)); cbn [bind]; auto. Qed.

Lemma foldM_ext : forall A S (f g : S -> A -> res S) l s, (forall s x, f s x = g s x) -> foldM f s l = foldM g s l.
Proof. induction l as [|a l IH]; intros s E; cbn [foldM]; [easy|]. rewrite E. destruct (g s a); cbn [bind]; auto. Qed.

Lemma sumZ_cons : forall a l, sumZ (a :: l) = (a + sumZ l)%Z.
Proof. easy. Qed.

Lemma load_items_gen : forall z its c w q, length z <= length its ->
  foldM (fun wp j => let* it := lget its j in Ok (fst wp + it_weight it, snd wp + it_profit it)%Z) (w, q) (selected z c)
  = Ok (w + at_city it_weight z its c, q + at_city it_profit z its c)%Z.
Proof.
  unfold selected, at_city. induction z as [|x z IH]; intros its c w q L.
  - cbn. now rewrite !Z.add_0_r.
  - destruct its as [|it its]; [cbn in L; lia|]. cbn in L.
    cbn [length seq]. rewrite <- seq_shift. cbn [filter nth_error]. rewrite filter_map_S. cbn [nth_error].
    cbn [combine map fst snd]. rewrite !sumZ_cons. destruct (x =? Z.of_nat c)%Z eqn:E.
    + cbn [foldM]. unfold lget at 1. cbn [nth_error bind fst snd]. rewrite foldM_map_S.
      erewrite foldM_ext. 2:{ intros s j. unfold lget. cbn [nth_error]. reflexivity. }
      specialize (IH its c (w + it_weight it)%Z (q + it_profit it)%Z ltac:(lia)). unfold lget in IH. rewrite IH.
      f_equal. f_equal; lia.
    + rewrite foldM_map_S. erewrite foldM_ext. 2:{ intros s j. unfold lget. cbn [nth_error]. reflexivity. }
      specialize (IH its c w q ltac:(lia)). unfold lget in IH. rewrite IH. f_equal.
Qed.

Lemma load_items : forall z c w q, length z <= length (t_items p) ->
  foldM (load_item p) (w, q) (selected z c)
  = Ok (w + at_city it_weight z (t_items p) c, q + at_city it_profit z (t_items p) c)%Z.
Proof. intros. apply load_items_gen. auto. Qed.

Lemma taken_snoc : forall f z cs c, ~ In c cs ->
  taken p f z (cs ++ [c]) = (taken p f z cs + at_city f z (t_items p) c)%Z.
Proof.
  intros f z cs c N. unfold taken, at_city. rewrite <- sumZ_map_plus. apply sumZ_map_ext. intros [x it] _. cbn [fst snd].
  rewrite existsb_app. cbn [existsb]. rewrite orb_false_r.
  destruct (existsb _ cs) eqn:E; cbn [orb].
  - apply existsb_exists in E as (d & I & E). apply Z.eqb_eq in E. subst x.
    destruct (Z.of_nat d =? Z.of_nat c)%Z eqn:X; [|lia]. apply Z.eqb_eq, Nat2Z.inj in X. subst. contradiction.
  - rewrite (Z.eqb_sym x). destruct (Z.of_nat c =? x)%Z; lia.
Qed.

Lemma taken_nil : forall f z, taken p f z [] = 0%Z.
Proof. intros. unfold taken. induction (combine z (t_items p)); cbn; auto. Qed.

Lemma taken_same : forall f z cs ds, (forall c, In c cs <-> In c ds) -> taken p f z cs = taken p f z ds.
Proof.
  intros f z cs ds S. unfold taken. apply sumZ_map_ext. intros [x it] _. cbn [fst snd].
  replace (existsb (fun c => (Z.of_nat c =? x)%Z) ds) with (existsb (fun c => (Z.of_nat c =? x)%Z) cs); [easy|].
  apply eq_true_iff_eq. rewrite !existsb_exists. split; intros (c & I & E); exists c; split; auto; now apply S.
Qed.

Lemma taken_incl : forall f z cs ds, (forall it, In it (t_items p) -> (0 <= f it)%Z) -> incl cs ds ->
  (0 <= taken p f z cs <= taken p f z ds)%Z.
Proof.
  intros f z cs ds N S. unfold taken. split.
  - apply sumZ_map_nonneg. intros [x it] I. cbn [fst snd]. destruct (existsb _ _); [|lia]. apply N. apply in_combine_r in I. auto.
  - apply sumZ_map_le. intros [x it] I. cbn [fst snd]. pose proof (N it (in_combine_r _ _ _ _ I)).
    destruct (existsb _ cs) eqn:E; [|destruct (existsb _ ds); lia].
    apply existsb_exists in E as (c & J & E). rewrite (proj2 (existsb_exists _ ds)); [lia|]. exists c. auto.
Qed.

(** ** Tours *)
Lemma legs_nth : forall (tour : list nat) k, k < legs tour ->
  nth_error (combine tour (tl tour)) k = Some (city tour k, city tour (S k)).
Proof.
  unfold legs, city. induction tour as [|a t IH]; intros k L; [cbn in L; lia|]. destruct t as [|b t]; [cbn in L; lia|].
  change (combine (a :: b :: t) (tl (a :: b :: t))) with ((a, b) :: combine (b :: t) (tl (b :: t))).
  destruct k as [|k]; [easy|]. cbn [length] in L.
  specialize (IH k ltac:(cbn [length]; lia)). exact IH.
Qed.

Lemma legs_length : forall tour : list nat, length (combine tour (tl tour)) = legs tour.
Proof. intros. rewrite combine_length. unfold legs. destruct tour; cbn [tl length]; lia. Qed.

Lemma city_error : forall tour k, k < length tour -> nth_error tour k = Some (city tour k).
Proof. intros. unfold city. now apply nth_error_nth'. Qed.

Lemma round_new : forall tour k, round_trip tour -> k < legs tour -> ~ In (city tour k) (firstn k tour).
Proof.
  intros tour k (c & rest & -> & ND) L. unfold legs in L. cbn [length] in L. rewrite app_length in L. cbn [length] in L.
  assert (E : nth_error (c :: rest) k = Some (city (c :: rest ++ [c]) k)).
  { rewrite <- (city_error (c :: rest ++ [c]) k) by (cbn [length]; rewrite app_length; cbn; lia).
    change (c :: rest ++ [c]) with ((c :: rest) ++ [c]). rewrite nth_error_app1; [easy|cbn [length]; lia]. }
  remember (city (c :: rest ++ [c]) k) as x eqn:X. clear X.
  change (c :: rest ++ [c]) with ((c :: rest) ++ [c]). rewrite firstn_app.
  replace (k - length (c :: rest)) with 0 by (cbn [length]; lia). cbn [firstn]. rewrite app_nil_r.
  remember (c :: rest) as l eqn:Q. clear Q.
  intros I. apply In_nth_error in I as (j & J).
  assert (JL : j < k). { assert (j < length (firstn k l)) by (apply nth_error_Some; congruence). rewrite firstn_length in H. lia. }
  rewrite nth_error_firstn in J by auto.
  assert (j = k); [|lia].
  eapply (proj1 (NoDup_nth_error l) ND j k); [apply nth_error_Some; congruence|congruence].
Qed.

Lemma total_S : forall n f, (total (S n) f == total n f + f n)%Q.
Proof.
  intros. unfold total. rewrite seq_S, map_app. cbn [map Nat.add]. generalize (map f (seq 0 n)).
  induction l as [|a l IH]; cbn [app fold_right]; [ring|]. rewrite IH. ring.
Qed.

Lemma total_ext : forall n f g, (forall i, i < n -> (f i == g i)%Q) -> (total n f == total n g)%Q.
Proof. induction n; intros f g E; [reflexivity|]. rewrite !total_S, (IHn f g), (E n) by auto. reflexivity. Qed.

Lemma total_le : forall n f g, (forall i, i < n -> (f i <= g i)%Q) -> (total n f <= total n g)%Q.
Proof.
  induction n; intros f g E; [cbn; lra|]. rewrite !total_S. pose proof (E n ltac:(auto)).
  pose proof (IHn f g ltac:(auto)). lra.
Qed.

Lemma total_scale : forall n f c, (total n (fun i => f i * c) == total n f * c)%Q.
Proof. induction n; intros; [cbn; ring|]. rewrite !total_S, IHn. ring. Qed.

(** ** One leg *)
Lemma leg_ok : forall a b, a < length (t_nodes p) -> b < length (t_nodes p) -> leg root p a b = Ok (far root p a b).
Proof.
  intros a b A B. unfold leg, far, lget. rewrite !(nth_error_nth' (t_nodes p) (0, 0)%Z) by auto. easy.
Qed.

Lemma fdiv_ok : forall a b x, fdiv a b = Ok x -> ~ (b == 0)%Q /\ x = (a / b)%Q.
Proof.
  unfold fdiv. intros a b x E. destruct (Qeq_bool b 0) eqn:B; [discriminate|]. split; [|congruence].
  intros C. apply Qeq_bool_iff in C. congruence.
Qed.

Lemma fdiv_total : forall a b, ~ (b == 0)%Q -> fdiv a b = Ok (a / b)%Q.
Proof.
  unfold fdiv. intros a b N. destruct (Qeq_bool b 0) eqn:B; [|easy]. apply Qeq_bool_iff in B. contradiction.
Qed.

(** What the loop holds after [k] legs. *)
Definition holds (z : list Z) (tour : list nat) (k : nat) (st : acc) : Prop :=
  a_wc st = taken p it_weight z (firstn k tour) /\
  a_profit st = taken p it_profit z (firstn k tour) /\
  (a_distance st == total k (fun i => far root p (city tour i) (city tour (S i))))%Q /\
  (a_time st == total k (fun i => far root p (city tour i) (city tour (S i)) / pace p (load p z tour i)))%Q.

Lemma holds_0 : forall z tour, holds z tour 0 (Acc 0 0 0 0).
Proof. intros. unfold holds. cbn [a_wc a_profit a_distance a_time firstn]. rewrite !taken_nil. repeat split; reflexivity. Qed.

Section Trip.
Variables (z : list Z) (tour : list nat).
Hypothesis Hin : inside p tour z.
Hypothesis Hround : round_trip tour.

Lemma city_in : forall k, k < length tour -> In (city tour k) tour.
Proof. intros. unfold city. now apply nth_In. Qed.

Lemma step_load : forall f k, k < legs tour ->
  taken p f z (firstn (S k) tour) = (taken p f z (firstn k tour) + at_city f z (t_items p) (city tour k))%Z.
Proof.
  intros f k L. rewrite (@firstn_snoc _ tour k (city tour k)) by (apply city_error; unfold legs in L; lia).
  apply taken_snoc. now apply round_new.
Qed.

Lemma step_ok : forall k st st', k < legs tour -> holds z tour k st ->
  turn root p z st (city tour k, city tour (S k)) = Ok st' -> holds z tour (S k) st'.
Proof.
  intros k st st' L (Hw & Hp & Hd & Ht) E. unfold turn in E. cbn [fst snd] in E.
  rewrite load_items in E by apply Hin. cbn [bind fst snd] in E. unfold legs in L.
  rewrite leg_ok in E by (apply (proj1 Hin), city_in; lia). cbn [bind] in E.
  apply bind_ok in E as (slow & Es & E). apply fdiv_ok in Es as (N1 & ->).
  apply bind_ok in E as (dt & Ed & E). apply fdiv_ok in Ed as (N2 & ->). injection E as <-.
  unfold holds. cbn [a_wc a_profit a_distance a_time].
  rewrite !step_load by (unfold legs; lia). rewrite Hw, Hp. split; [easy|]. split; [easy|]. split.
  - rewrite total_S, Hd. reflexivity.
  - rewrite total_S, Ht. unfold pace, load. rewrite step_load by (unfold legs; lia). reflexivity.
Qed.

Lemma step_total : forall k st, k < legs tour -> holds z tour k st -> ~ (t_capacity p == 0)%Q ->
  ~ (pace p (load p z tour k) == 0)%Q ->
  exists st', turn root p z st (city tour k, city tour (S k)) = Ok st'.
Proof.
  intros k st L (Hw & Hp & Hd & Ht) C V. unfold turn. cbn [fst snd].
  rewrite load_items by apply Hin. cbn [bind fst snd]. unfold legs in L.
  rewrite leg_ok by (apply (proj1 Hin), city_in; lia). cbn [bind]. rewrite fdiv_total by auto. cbn [bind].
  rewrite Hw, <- step_load by (unfold legs; lia). fold (load p z tour k). fold (pace p (load p z tour k)).
  rewrite fdiv_total by auto. cbn [bind]. eauto.
Qed.

Lemma prefix_ok : forall k st, k <= legs tour ->
  foldM (turn root p z) (Acc 0 0 0 0) (firstn k (combine tour (tl tour))) = Ok st -> holds z tour k st.
Proof.
  induction k as [|k IH]; intros st L E.
  - cbn in E. injection E as <-. apply holds_0.
  - rewrite (firstn_snoc _ _ (legs_nth tour k ltac:(lia))), foldM_app in E.
    apply bind_ok in E as (s1 & E1 & E). cbn [foldM] in E. apply bind_ok in E as (s2 & E2 & E). injection E as <-.
    apply (step_ok k s1); auto; try lia. apply IH; auto; lia.
Qed.

Lemma prefix_total : ~ (t_capacity p == 0)%Q -> (forall k, k < legs tour -> ~ (pace p (load p z tour k) == 0)%Q) ->
  forall k, k <= legs tour ->
  exists st, foldM (turn root p z) (Acc 0 0 0 0) (firstn k (combine tour (tl tour))) = Ok st.
Proof.
  intros C V. induction k as [|k IH]; intros L; [cbn; eauto|].
  destruct IH as (st & E); [lia|].
  destruct (step_total k st ltac:(lia) (prefix_ok k st ltac:(lia) E) C (V k ltac:(lia))) as (st' & T).
  exists st'. rewrite (firstn_snoc _ _ (legs_nth tour k ltac:(lia))), foldM_app, E. cbn [bind foldM]. now rewrite T.
Qed.

Lemma trip_shape : exists c t, tour = c :: t /\ last tour c = c.
Proof.
  destruct Hround as (c & rest & E & _). exists c, (rest ++ [c]). split; auto. rewrite E.
  change (c :: rest ++ [c]) with ((c :: rest) ++ [c]). apply last_last.
Qed.

Lemma trip_set : forall x, In x (firstn (legs tour) tour) <-> In x tour.
Proof.
  destruct Hround as (c & rest & E & _). rewrite E. unfold legs. cbn [length]. rewrite app_length. cbn [length].
  replace (S (length rest + 1) - 1) with (length (c :: rest)) by (cbn [length]; lia).
  change (c :: rest ++ [c]) with ((c :: rest) ++ [c]). rewrite firstn_app, Nat.sub_diag, firstn_all. cbn [firstn].
  rewrite app_nil_r. intros x. rewrite in_app_iff. split; auto. intros [I|[<-|[]]]; [auto|now left].
Qed.

Lemma function_ok : forall st, evaluate_function root p tour z = Ok (Some st) ->
  a_wc st = taken p it_weight z tour /\ a_profit st = taken p it_profit z tour /\
  (a_distance st == length_of root p tour)%Q /\ (a_time st == duration root p z tour)%Q.
Proof.
  intros st E. destruct trip_shape as (c & t & T & La). unfold evaluate_function in E. rewrite T in E. rewrite <- T in E.
  rewrite La, Nat.eqb_refl in E. cbn [negb] in E. apply bind_ok in E as (s1 & E & E'). injection E' as <-.
  rewrite <- (firstn_all (combine tour (tl tour))), legs_length in E.
  destruct (prefix_ok (legs tour) s1 (le_n _) E) as (A & B & C & D).
  rewrite (taken_same it_weight z _ _ trip_set) in A. rewrite (taken_same it_profit z _ _ trip_set) in B. auto.
Qed.

Lemma function_some : forall o, evaluate_function root p tour z = Ok o -> exists st, o = Some st.
Proof.
  intros o E. destruct trip_shape as (c & t & T & La). unfold evaluate_function in E. rewrite T in E. rewrite <- T in E.
  rewrite La, Nat.eqb_refl in E. cbn [negb] in E. apply bind_ok in E as (s1 & E & E'). injection E' as <-. eauto.
Qed.

Lemma function_total : ~ (t_capacity p == 0)%Q -> (forall k, k < legs tour -> ~ (pace p (load p z tour k) == 0)%Q) ->
  exists st, evaluate_function root p tour z = Ok (Some st).
Proof.
  intros C V. destruct trip_shape as (c & t & T & La). destruct (prefix_total C V (legs tour) (le_n _)) as (st & E).
  rewrite <- legs_length, firstn_all in E. exists st. unfold evaluate_function. rewrite T, <- T.
  rewrite La, Nat.eqb_refl. cbn [negb]. now rewrite E.
Qed.

Lemma firstn_incl : forall k, incl (firstn k tour) tour.
Proof. clear. intros k x I. rewrite <- (firstn_skipn k tour). apply in_or_app. auto. Qed.

(** ** Speeds *)
Lemma pace_range : (t_min_speed p <= t_max_speed p)%Q -> (0 < t_capacity p)%Q ->
  forall w, (0 <= w)%Z -> (inject_Z w <= t_capacity p)%Q -> (t_min_speed p <= pace p w <= t_max_speed p)%Q.
Proof.
  clear. intros V C w W L. unfold pace.
  assert (Hw : (0 <= inject_Z w)%Q) by (change 0%Q with (inject_Z 0); now rewrite <- Zle_Qle).
  assert (A : (0 <= inject_Z w * (t_max_speed p - t_min_speed p) / t_capacity p)%Q).
  { apply Qle_shift_div_l; auto. nra. }
  assert (B : (inject_Z w * (t_max_speed p - t_min_speed p) / t_capacity p <= t_max_speed p - t_min_speed p)%Q).
  { apply Qle_shift_div_r; auto. nra. }
  lra.
Qed.

Lemma pace_anti : (t_min_speed p <= t_max_speed p)%Q -> (0 < t_capacity p)%Q ->
  forall w w', (w <= w')%Z -> (pace p w' <= pace p w)%Q.
Proof.
  clear. intros V C w w' L. unfold pace.
  assert (Hw : (inject_Z w <= inject_Z w')%Q) by now rewrite <- Zle_Qle.
  assert (B : (inject_Z w * (t_max_speed p - t_min_speed p) / t_capacity p
               <= inject_Z w' * (t_max_speed p - t_min_speed p) / t_capacity p)%Q).
  { apply Qle_shift_div_l; auto. unfold Qdiv. rewrite <- Qmult_assoc, (Qmult_comm (/ _)), Qmult_inv_r by lra. nra. }
  lra.
Qed.

Lemma load_range : sensible p z tour -> forall k, (t_min_speed p <= pace p (load p z tour k) <= t_max_speed p)%Q.
Proof.
  clear Hin Hround. intros (V0 & V & C & W & L) k.
  destruct (taken_incl it_weight z (firstn (S k) tour) tour W (firstn_incl (S k))) as (A & B).
  apply pace_range; auto. unfold load. eapply Qle_trans; [|exact L]. now rewrite <- Zle_Qle.
Qed.

Lemma sensible_total : sensible p z tour -> exists st, evaluate_function root p tour z = Ok (Some st).
Proof.
  intros S. apply function_total.
  - destruct S as (_ & _ & C & _). lra.
  - intros k _. pose proof (load_range S k). destruct S as (V0 & _). lra.
Qed.
End Trip.

Lemma quot_le : forall d a b, (0 <= d)%Q -> (0 < a)%Q -> (a <= b)%Q -> (d / b <= d / a)%Q.
Proof.
  intros d a b D A B. apply Qle_shift_div_l; auto. unfold Qdiv. rewrite <- Qmult_assoc, (Qmult_comm (/ b)).
  assert (X : (a * / b <= 1)%Q) by (apply Qle_shift_div_r; lra).
  assert (Y : (0 <= a * / b)%Q) by (apply Qle_shift_div_l; lra). nra.
Qed.

Lemma duration_range : forall z tour, sensible p z tour -> (forall x, (0 <= root x)%Q) ->
  (length_of root p tour / t_max_speed p <= duration root p z tour <= length_of root p tour / t_min_speed p)%Q.
Proof.
  intros z tour S R. pose proof (load_range z tour S) as Rg. destruct S as (V0 & V & _).
  assert (F : forall a b, (0 <= far root p a b)%Q) by (intros; unfold far; apply R).
  unfold length_of, duration, Qdiv. rewrite <- !total_scale. split; apply total_le; intros i _; apply quot_le; auto; try apply Rg.
  destruct (Rg i). lra.
Qed.

Lemma duration_more : forall z z' tour, sensible p z' tour -> (forall x, (0 <= root x)%Q) ->
  (forall i, (load p z tour i <= load p z' tour i)%Z) ->
  (duration root p z tour <= duration root p z' tour)%Q.
Proof.
  intros z z' tour S R Le. pose proof (load_range z' tour S) as Rg. destruct S as (V0 & V & C & _).
  apply total_le. intros i _. apply quot_le; [unfold far; apply R|destruct (Rg i); lra|].
  apply pace_anti; auto.
Qed.

Lemma taken_more : forall f (z z' : list Z) cs tour, (forall it, In it (t_items p) -> (0 <= f it)%Z) -> incl cs tour ->
  Forall2 (fun a b => a = b \/ ~ In a (map Z.of_nat tour)) z z' ->
  (taken p f z cs <= taken p f z' cs)%Z.
Proof.
  intros f z z' cs tour N I Fz. unfold taken. revert N. generalize (t_items p). induction Fz as [|a b z z' E Fz IH]; intros its N; [apply Z.le_refl|].
  destruct its as [|it its]; [apply Z.le_refl|]. cbn [combine map fst snd]. rewrite !sumZ_cons.
  specialize (IH its (fun it J => N it (or_intror J))). pose proof (N it (or_introl eq_refl)).
  enough (((if existsb (fun c => (Z.of_nat c =? a)%Z) cs then f it else 0) <= (if existsb (fun c => (Z.of_nat c =? b)%Z) cs then f it else 0))%Z) by lia.
  destruct E as [<-|E]; [lia|]. destruct (existsb (fun c => (Z.of_nat c =? a)%Z) cs) eqn:X; [|destruct (existsb (fun c => (Z.of_nat c =? b)%Z) cs); lia].
  apply existsb_exists in X as (c & J & X). apply Z.eqb_eq in X. exfalso. apply E. rewrite <- X. apply in_map. auto.
Qed.

(** ** The detailed evaluation *)
Lemma details_fold : forall z l st ws st' ws',
  foldM (turn_details root p z) (st, ws) l = Ok (st', ws') <->
  exists ex, ws' = ws ++ ex /\ foldM (turn root p z) st l = Ok st' /\
             length ex = length l /\
             forall k, k < length l -> exists s1, foldM (turn root p z) st (firstn (S k) l) = Ok s1 /\ nth_error ex k = Some (a_wc s1).
Proof.
  induction l as [|ab l IH]; intros st ws st' ws'.
  - cbn. split.
    + intros E. injection E as <- <-. exists []. rewrite app_nil_r. repeat split; auto. intros; lia.
    + intros (ex & -> & E & L & _). destruct ex; [|discriminate]. injection E as <-. now rewrite app_nil_r.
  - cbn [foldM]. unfold turn_details at 1. cbn [fst snd].
    assert (T : turn root p z st ab =
      let* wp := foldM (load_item p) (a_wc st, a_profit st) (selected z (fst ab)) in
      let* d := leg root p (fst ab) (snd ab) in
      let* slow := fdiv (inject_Z (fst wp) * (t_max_speed p - t_min_speed p))%Q (t_capacity p) in
      let* dt := fdiv d (t_max_speed p - slow)%Q in
      Ok (Acc (fst wp) (snd wp) (a_distance st + d)%Q (a_time st + dt)%Q)) by reflexivity.
    destruct (foldM (load_item p) _ _) as [wp|]; cbn [bind] in *; [|split; [discriminate|intros (ex & _ & E & _); rewrite T in E; discriminate]].
    destruct (leg root p (fst ab) (snd ab)) as [d|]; cbn [bind] in *; [|split; [discriminate|intros (ex & _ & E & _); rewrite T in E; discriminate]].
    destruct (fdiv _ (t_capacity p)) as [slow|]; cbn [bind] in *; [|split; [discriminate|intros (ex & _ & E & _); rewrite T in E; discriminate]].
    destruct (fdiv d _) as [dt|]; cbn [bind] in *; [|split; [discriminate|intros (ex & _ & E & _); rewrite T in E; discriminate]].
    rewrite IH. rewrite T. cbn [bind]. split.
    + intros (ex & -> & E & L & K). exists (fst wp :: ex). rewrite <- app_assoc. cbn [app length]. repeat split; auto.
      intros [|k] Lk.
      * exists (Acc (fst wp) (snd wp) (a_distance st + d)%Q (a_time st + dt)%Q). cbn [firstn foldM]. rewrite T. cbn [bind nth_error a_wc]. auto.
      * destruct (K k ltac:(lia)) as (s1 & F & Nx). exists s1. split; [|exact Nx]. change (firstn (S (S k)) (ab :: l)) with (ab :: firstn (S k) l).
        cbn [foldM]. rewrite T. cbn [bind]. exact F.
    + intros (ex & -> & E & L & K). destruct ex as [|w ex]; [cbn in L; lia|]. exists ex. cbn [length] in *.
      destruct (K 0 ltac:(lia)) as (s0 & F0 & N0). cbn [firstn foldM] in F0. rewrite T in F0. cbn [bind] in F0. injection F0 as <-.
      cbn [nth_error a_wc] in N0. injection N0 as ->. rewrite <- app_assoc. cbn [app]. repeat split; auto.
      intros k Lk. destruct (K (S k) ltac:(lia)) as (s1 & F & Nx). exists s1. split; [|exact Nx].
      change (firstn (S (S k)) (ab :: l)) with (ab :: firstn (S k) l) in F. cbn [foldM] in F. rewrite T in F. exact F.
Qed.
End P.

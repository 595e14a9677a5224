(** Properties of domain requirements (C12). *)
From Coq Require Import List Bool Arith Lia Sorted.
From Verif Require Import Py ReqModel.
Import ListNotations.

Section Spec.
Variable bases : nat -> list nat.

(** [derives c b]: class [c] is [b] or inherits from it. *)
Inductive derives : nat -> nat -> Prop :=
| d_refl : forall c, derives c c
| d_base : forall c b a, In b (bases c) -> derives b a -> derives c a.

(** A characteristic (builder class): no class with several bases among its ancestors. *)
Inductive builder : nat -> Prop :=
| b_root : forall c, bases c = [] -> builder c
| b_one : forall c b, bases c = [b] -> builder b -> builder c.

(** Classes are created after their bases. *)
Definition well_founded_classes : Prop := forall c b, In b (bases c) -> b < c.

(** What the interpreter guarantees of [T.__mro__]: [object] comes last, all the ancestors are
    there, and no class comes after one that it inherits from. *)
Definition valid_mro (T : nat) (mro : list nat) : Prop :=
  (exists l object, mro = l ++ [object] /\ bases object = [] /\ forall c, bases c = [] -> c = object) /\
  (forall a, In a mro <-> derives T a) /\
  StronglySorted (fun x y => ~ derives y x) mro.

Lemma derives_trans : forall a b, derives a b -> forall c, derives b c -> derives a c.
Proof. induction 1 as [|c b a I D IH]; intros x Dx; auto. econstructor; eauto. Qed.

Lemma builder_derives : forall a b, derives a b -> builder a -> builder b.
Proof.
  induction 1 as [|c b a I D IH]; intros B; auto. apply IH.
  inversion B as [? E|? b' E B']; subst; rewrite E in I; [destruct I|]. destruct I as [ -> |[]]; auto.
Qed.

Section Loop.
Hypothesis WF : well_founded_classes.
Variable cfuel : nat.

Lemma is_builder_spec : forall fuel c acc, c < fuel ->
  exists r, is_domain_builder bases fuel c acc = Ok r /\
    ((fst r = true /\ builder c /\
      (forall x, In x (snd r) <-> In x acc \/ (derives c x /\ x <> c))) \/
     (fst r = false /\ ~ builder c)).
Proof.
  induction fuel as [|fuel IH]; intros c acc L; [lia|]. cbn [is_domain_builder].
  destruct (bases c) as [|b [|b' l]] eqn:E.
  - exists (true, acc). split; auto. left. cbn [fst snd]. split; auto. split; [now constructor|].
    intros x. split; auto. intros [X|[D N]]; auto.
    inversion D as [|? b ? I D']; subst; [congruence|]. rewrite E in I. destruct I.
  - assert (Lb : b < c) by (apply WF; rewrite E; now left).
    destruct (IH b (acc ++ [b])) as (r & Er & [(F & B & S)|(F & B)]); [lia| |].
    + exists r. split; auto. left. split; auto. split; [eapply b_one; eauto|].
      intros x. rewrite S, in_app_iff. split.
      * intros [[X|[ -> |[]]]|[D N]]; auto; right.
        -- split; [|lia]. econstructor; [rewrite E; now left|constructor].
        -- assert (Dc : derives c x) by (econstructor; eauto; rewrite E; now left).
           split; auto. intros ->.
           assert (forall u v, derives u v -> v <= u) as Le.
           { clear -WF. induction 1 as [|u v w I D IH']; auto. apply WF in I. lia. }
           apply Le in D. lia.
      * intros [X|[D N]]; [auto|].
        inversion D as [|? b0 ? I D']; subst; [congruence|]. rewrite E in I. destruct I as [ -> |[]].
        destruct (Nat.eq_dec x b0) as [ -> |N']; [left; right; now left|right; auto].
    + exists r. split; auto. right. split; auto. intros B'.
      inversion B' as [? E'|? b0 E' B0]; subst; rewrite E in E'; [discriminate|].
      injection E' as <-. auto.
  - exists (false, []). split; auto. right. split; auto. intros B.
    inversion B as [? E'|? b0 E' B0]; subst; rewrite E in E'; discriminate.
Qed.

Lemma pyremove_app : forall (l1 l2 : list nat) a, ~ In a l1 -> pyremove a (l1 ++ a :: l2) = l1 ++ l2.
Proof.
  induction l1 as [|x l1 IH]; intros l2 a N; simpl.
  - destruct (Nat.eqb_spec a a); [auto|congruence].
  - destruct (Nat.eqb_spec a x) as [ -> |]; [exfalso; apply N; now left|].
    f_equal. apply IH. intros X. apply N. now right.
Qed.

Lemma SSorted_app : forall (R : nat -> nat -> Prop) l1 l2, StronglySorted R (l1 ++ l2) ->
  StronglySorted R l1 /\ StronglySorted R l2 /\ forall x y, In x l1 -> In y l2 -> R x y.
Proof.
  intros R. induction l1 as [|a l1 IH]; intros l2 S; simpl in *.
  - split; [constructor|]. split; auto. intros x y [].
  - inversion S as [|? ? S' F]; subst. destruct (IH _ S') as (A & B & C). rewrite Forall_app in F.
    destruct F as [F1 F2]. split; [now constructor|]. split; auto.
    intros x y [ -> |I] Iy; auto. rewrite Forall_forall in F2. auto.
Qed.

Lemma SSorted_app_intro : forall (R : nat -> nat -> Prop) l1 l2, StronglySorted R l1 -> StronglySorted R l2 ->
  (forall x y, In x l1 -> In y l2 -> R x y) -> StronglySorted R (l1 ++ l2).
Proof.
  intros R l1 l2 S1 S2 H. induction S1 as [|a l S1 IH F]; simpl; auto. constructor.
  - apply IH. intros x y Ix Iy. apply H; auto. now right.
  - rewrite Forall_app. split; auto. rewrite Forall_forall. intros y Iy. apply H; auto. now left.
Qed.

Lemma SSorted_filter : forall (R : nat -> nat -> Prop) f l, StronglySorted R l -> StronglySorted R (filter f l).
Proof.
  intros R f l S. induction S as [|a l S IH F]; simpl; [constructor|].
  destruct (f a); auto. constructor; auto. rewrite Forall_forall in *. intros x I.
  apply filter_In in I. apply F. tauto.
Qed.

Lemma filter_id : forall (f : nat -> bool) l, (forall x, In x l -> f x = true) -> filter f l = l.
Proof.
  intros f. induction l as [|a l IH]; intros H; simpl; auto. rewrite (H a (or_introl eq_refl)).
  f_equal. apply IH. intros x I. apply H. now right.
Qed.

Lemma filter_length_le : forall (f : nat -> bool) l, length (filter f l) <= length l.
Proof. intros f. induction l as [|a l IH]; simpl; auto. destruct (f a); simpl; lia. Qed.

Definition Inv (orig done rest : list nat) : Prop :=
  StronglySorted (fun x y => ~ derives y x) (done ++ rest) /\
  incl (done ++ rest) orig /\
  Forall builder done /\
  (forall x y, In x done -> In y (done ++ rest) -> derives x y -> x = y) /\
  (forall b, In b orig -> builder b -> exists r, In r (done ++ rest) /\ builder r /\ derives r b).

Lemma loop_spec : forall orig, (forall c, In c orig -> c < cfuel) ->
  forall fuel done rest, length rest < fuel -> Inv orig done rest ->
  exists R, req_loop bases fuel cfuel (length done) (done ++ rest) = Ok R /\ Inv orig R [].
Proof.
  intros orig CF. induction fuel as [|fuel IH]; intros done rest L I; [lia|].
  cbn [req_loop]. destruct rest as [|a rest].
  - rewrite nth_error_app2, Nat.sub_diag by lia. simpl. rewrite app_nil_r. eauto.
  - rewrite nth_error_app2, Nat.sub_diag by lia. simpl nth_error.
    destruct I as (S & Inc & B & Anti & Cov).
    destruct (SSorted_app _ _ _ S) as (S1 & S2 & S3).
    assert (Ia : In a (done ++ a :: rest)) by (apply in_or_app; right; now left).
    destruct (is_builder_spec cfuel a [] (CF a (Inc _ Ia))) as (r & Er & [(F & Ba & Ch)|(F & Ba)]);
      rewrite Er; cbn [bind]; rewrite F.
    + set (f := fun x => negb (pymem x (snd r))).
      assert (fT : forall x, f x = true <-> ~ (derives a x /\ x <> a)).
      { intros x. unfold f. rewrite negb_true_iff. rewrite pymem_false. rewrite Ch. simpl. tauto. }
      assert (Fd : filter f done = done).
      { apply filter_id. intros x Ix. apply fT. intros [D _]. apply (S3 x a); auto. now left. }
      assert (Fa : f a = true) by (apply fT; tauto).
      rewrite filter_app. rewrite Fd. simpl. fold f. rewrite Fa.
      replace (done ++ a :: filter f rest) with ((done ++ [a]) ++ filter f rest) by now rewrite <- app_assoc.
      replace (Datatypes.S (length done)) with (length (done ++ [a])) by (rewrite app_length; simpl; lia).
      assert (Sub : incl ((done ++ [a]) ++ filter f rest) (done ++ a :: rest)).
      { intros x X. rewrite <- app_assoc in X. apply in_app_iff in X. apply in_app_iff. destruct X as [X|[X|X]]; auto.
        - right. now left.
        - right. right. apply filter_In in X. tauto. }
      apply IH.
      * pose proof (filter_length_le f rest) as FL. simpl in L. lia.
      * split; [|split; [|split; [|split]]].
        -- rewrite <- app_assoc. simpl. apply SSorted_app_intro; auto.
           ++ assert (X : a :: filter f rest = filter f (a :: rest)) by (simpl; now rewrite Fa).
              rewrite X. now apply SSorted_filter.
           ++ intros x y Ix [ -> |Iy]; [apply S3; auto; now left|]. apply S3; auto. right.
              apply filter_In in Iy. tauto.
        -- intros x X. apply Inc. now apply Sub.
        -- rewrite Forall_app. split; auto.
        -- intros x y Ix Iy D. apply in_app_iff in Ix. destruct Ix as [Ix|[ -> |[]]].
           ++ apply Anti; auto.
           ++ destruct (Nat.eq_dec x y) as [|N]; auto. exfalso.
              rewrite <- app_assoc in Iy. apply in_app_iff in Iy. destruct Iy as [Iy|[Iy|Iy]].
              ** apply (S3 y x); auto. now left.
              ** auto.
              ** apply filter_In in Iy. destruct Iy as [_ Fy]. apply fT in Fy. apply Fy. auto.
        -- intros b Ib Bb. destruct (Cov b Ib Bb) as (r' & Ir & Br & Dr).
           destruct (f r') eqn:Fr.
           ++ exists r'. split; auto. rewrite <- app_assoc. apply in_app_iff in Ir. apply in_app_iff.
              destruct Ir as [Ir|[Ir|Ir]]; auto; right; [now left|right]. apply filter_In. auto.
           ++ exists a. split; [apply in_or_app; left; apply in_or_app; right; now left|]. split; auto.
              destruct (Nat.eq_dec r' a) as [ -> |N]; [congruence|].
              assert (D : derives a r').
              { unfold f in Fr. apply negb_false_iff in Fr. apply pymem_true in Fr. apply Ch in Fr.
                destruct Fr as [[]|[D _]]. auto. }
              eapply derives_trans; eauto.
    + assert (Na : ~ In a done) by (intros X; apply (S3 a a); auto; [now left|constructor]).
      rewrite pyremove_app by auto. apply IH; [simpl in L; lia|].
      assert (Sub : incl (done ++ rest) (done ++ a :: rest)).
      { intros x X. apply in_app_iff in X. apply in_app_iff. destruct X; auto. right. now right. }
      split; [|split; [|split; [|split]]]; auto.
      * apply SSorted_app_intro; auto. { now inversion S2. } intros x y Ix Iy. apply S3; auto. now right.
      * intros x X. apply Inc. now apply Sub.
      * intros b Ib Bb. destruct (Cov b Ib Bb) as (r' & Ir & Br & Dr). exists r'. split; auto.
        apply in_app_iff in Ir. apply in_app_iff. destruct Ir as [Ir|[ -> |Ir]]; auto. contradiction.
Qed.
End Loop.

Lemma requirements_spec : forall T mro cfuel, well_founded_classes -> valid_mro T mro ->
  (forall c, In c mro -> c < cfuel) ->
  exists R, get_domain_requirements bases cfuel mro = Ok R /\ Inv (removelast mro) R [].
Proof.
  intros T mro cfuel WF ((l & object & -> & Bo & Uo) & An & Srt) CF. unfold get_domain_requirements.
  rewrite removelast_last. destruct (SSorted_app _ _ _ Srt) as (S1 & _ & _).
  apply (loop_spec WF cfuel l) with (done := []); [|lia|].
  - intros c I. apply CF. apply in_or_app. auto.
  - split; [exact S1|]. split; [apply incl_refl|]. split; [constructor|].
    split; [intros x y []|]. intros b Ib Bb. exists b. repeat split; auto. constructor.
Qed.

(** C12: a domain passes the check exactly when its class inherits from every characteristic that
    the solver's domain type inherits from, and the additional check passes. *)
Theorem C12_check_iff_all_characteristics : forall T mro Dc dmro cfuel additional,
  well_founded_classes -> valid_mro T mro -> (forall a, In a dmro <-> derives Dc a) ->
  (forall c, In c mro -> c < cfuel) ->
  (forall object, bases object = [] -> derives Dc object) ->
  exists b, check_domain bases cfuel mro dmro additional = Ok b /\
    (b = true <-> (forall c, builder c -> derives T c -> derives Dc c) /\ additional = true).
Proof.
  intros T mro Dc dmro cfuel additional WF VM DM CF OB.
  destruct (requirements_spec T mro cfuel WF VM CF) as (R & ER & Srt & Inc & B & Anti & Cov).
  unfold check_domain. rewrite ER. cbn [bind]. eexists. split; [reflexivity|].
  rewrite andb_true_iff, forallb_forall. rewrite app_nil_r in *.
  destruct VM as ((l & object & -> & Bo & Uo) & An & _). rewrite removelast_last in *.
  split.
  - intros [H1 H2]. split; auto. intros c Bc Dt.
    apply An in Dt. apply in_app_iff in Dt. destruct Dt as [I|[ -> |[]]].
    + destruct (Cov c I Bc) as (r & Ir & Br & Dr). eapply derives_trans; [|eauto].
      apply DM. apply (proj1 (pymem_true r dmro)). auto.
    + auto.
  - intros [H1 H2]. split; auto. intros c I. apply (proj2 (pymem_true c dmro)). apply DM. apply H1.
    + rewrite Forall_forall in B. auto.
    + apply An. apply in_or_app. left. auto.
Qed.

(** C12: the reported requirements are characteristics of the solver's domain type, none implied by
    another one, and together they imply every other characteristic. *)
Theorem C12_requirements_minimal : forall T mro cfuel,
  well_founded_classes -> valid_mro T mro -> (forall c, In c mro -> c < cfuel) ->
  exists R, get_domain_requirements bases cfuel mro = Ok R /\ NoDup R /\
    (forall r, In r R -> builder r /\ derives T r /\ bases r <> []) /\
    (forall r r', In r R -> In r' R -> derives r r' -> r = r') /\
    (forall c, builder c -> derives T c -> bases c <> [] -> exists r, In r R /\ derives r c).
Proof.
  intros T mro cfuel WF VM CF.
  destruct (requirements_spec T mro cfuel WF VM CF) as (R & ER & Srt & Inc & B & Anti & Cov).
  rewrite app_nil_r in *. exists R. split; auto.
  destruct VM as ((l & object & -> & Bo & Uo) & An & S0). rewrite removelast_last in *.
  split; [|split; [|split]].
  - clear -Srt. induction Srt as [|a l S IH F]; constructor; auto. intros I.
    rewrite Forall_forall in F. apply (F a I). constructor.
  - intros r I. rewrite Forall_forall in B. split; auto. split; [apply An; apply in_or_app; left; auto|].
    intros E. apply Uo in E. subst r. destruct (SSorted_app _ _ _ S0) as (_ & _ & X).
    apply (X object object); [now apply Inc|now left|constructor].
  - auto.
  - intros c Bc D N. apply An in D. apply in_app_iff in D. destruct D as [I|[ -> |[]]]; [|congruence].
    destruct (Cov c I Bc) as (r & Ir & _ & Dr). eauto.
Qed.

End Spec.

(** A concrete hierarchy: object 0; Environment 1 <- Simulation 2 <- UncertainTransitions 3;
    History 4 <- FiniteHistory 5; Domain 6 (Environment, History) ; solver type
    T_domain = 7 (Domain, UncertainTransitions, FiniteHistory). *)
Definition ex_bases (c : nat) : list nat :=
  match c with
  | 1 => [0] | 2 => [1] | 3 => [2] | 4 => [0] | 5 => [4] | 6 => [1; 4] | 7 => [6; 3; 5]
  | _ => []
  end.
Definition ex_bases' (c : nat) : list nat := if Nat.leb c 7 then ex_bases c else [0].
Definition ex_mro : list nat := [7; 6; 3; 2; 1; 5; 4; 0].

Lemma ex_wf : well_founded_classes ex_bases'.
Proof.
  intros c b. unfold ex_bases'. destruct (Nat.leb_spec c 7) as [L|G].
  - do 8 (destruct c as [|c]; [simpl; intuition lia|]). lia.
  - simpl. intuition lia.
Qed.

Lemma ex_derives : forall c a, derives ex_bases' c a -> c <= 7 ->
  In a (match c with
        | 0 => [0] | 1 => [1; 0] | 2 => [2; 1; 0] | 3 => [3; 2; 1; 0] | 4 => [4; 0] | 5 => [5; 4; 0]
        | 6 => [6; 1; 4; 0] | _ => ex_mro end).
Proof.
  induction 1 as [c|c b a I D IH]; intros L.
  - do 8 (destruct c as [|c]; [simpl; tauto|]). lia.
  - unfold ex_bases' in I.
    do 8 (destruct c as [|c]; [simpl in I;
       repeat (destruct I as [I|I]; [subst b; specialize (IH ltac:(lia)); simpl in IH; simpl; tauto|]); destruct I|]).
    lia.
Qed.

Example C12_ex : well_founded_classes ex_bases' /\ valid_mro ex_bases' 7 ex_mro /\
  get_domain_requirements ex_bases' 8 ex_mro = Ok [3; 5] /\
  check_domain ex_bases' 8 ex_mro [3; 2; 1; 0] true = Ok false.
Proof.
  split; [apply ex_wf|]. split; [|split; reflexivity]. split; [|split].
  - exists [7; 6; 3; 2; 1; 5; 4], 0. split; [reflexivity|]. split; [reflexivity|].
    intros c. unfold ex_bases'. destruct (Nat.leb_spec c 7) as [L|G]; [|discriminate].
    do 8 (destruct c as [|c]; [simpl; auto; discriminate|]). lia.
  - intros a. split.
    + assert (D : forall c b a, In b (ex_bases' c) -> derives ex_bases' b a -> derives ex_bases' c a)
        by (intros; econstructor; eauto).
      simpl. intros [<-|[<-|[<-|[<-|[<-|[<-|[<-|[<-|[]]]]]]]]].
      * constructor.
      * apply (D 7 6); [simpl; tauto|constructor].
      * apply (D 7 3); [simpl; tauto|constructor].
      * apply (D 7 3); [simpl; tauto|]. apply (D 3 2); [simpl; tauto|constructor].
      * apply (D 7 6); [simpl; tauto|]. apply (D 6 1); [simpl; tauto|constructor].
      * apply (D 7 5); [simpl; tauto|constructor].
      * apply (D 7 6); [simpl; tauto|]. apply (D 6 4); [simpl; tauto|constructor].
      * apply (D 7 6); [simpl; tauto|]. apply (D 6 4); [simpl; tauto|]. apply (D 4 0); [simpl; tauto|constructor].
    + intros D. apply ex_derives in D; [exact D|lia].
  - unfold ex_mro. repeat constructor; intros D; apply ex_derives in D; try lia; simpl in D; intuition lia.
Qed.

Print Assumptions C12_check_iff_all_characteristics.
Print Assumptions C12_requirements_minimal.

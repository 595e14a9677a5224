(** Monte Carlo tree search: containers, shapes of graphs, expansion. *)
From Coq Require Import List Bool Arith QArith Lia Permutation.
From Verif Require Import Py PyList PyMore MctsModel MctsSpec.
Import ListNotations.
Local Open Scope nat_scope.

Section Upd.
Context {K V : Type} {EK : PyEq K}.
Lemma dget_upd : forall (d : list (K * V)) k f k', dget (upd d k f) k' = if pyeqb k k' then option_map f (dget d k') else dget d k'.
Proof.
  intros d k f k'. induction d as [|[c v] d IH]; [cbn; destruct (pyeqb k k'); reflexivity|]. unfold upd in *. cbn [map fst snd].
  destruct (pyeqb_spec k c) as [->|N]; cbn [dget fst snd].
  - rewrite IH. destruct (pyeqb_spec k' c) as [->|N']; [now rewrite pyeqb_refl|]. destruct (pyeqb c k'); reflexivity.
  - rewrite IH. destruct (pyeqb_spec k' c) as [->|N']; [|reflexivity]. destruct (pyeqb_spec k c); [contradiction|reflexivity].
Qed.
Lemma dkeys_upd : forall (d : list (K * V)) k f, dkeys (upd d k f) = dkeys d.
Proof. intros d k f. unfold dkeys, upd. rewrite map_map. apply map_ext. intros [c v]. cbn. destruct (pyeqb k c); reflexivity. Qed.
Lemma dmem_upd : forall (d : list (K * V)) k f k', dmem (upd d k f) k' = dmem d k'.
Proof. intros. unfold dmem. rewrite dget_upd. destruct (pyeqb k k'), (dget d k'); reflexivity. Qed.
Lemma dget_snoc : forall (d : list (K * V)) k v k', dmem d k = false -> dget (d ++ [(k, v)]) k' = if pyeqb k k' then Some v else dget d k'.
Proof.
  intros d k v k' F. rewrite <- (dset_new _ _ d k v (proj1 (dmem_false d k) F)). apply dget_dset.
Qed.
Lemma dmem_get : forall (d : list (K * V)) k, dmem d k = true <-> exists v, dget d k = Some v.
Proof. intros d k. rewrite dmem_true, dget_keys. reflexivity. Qed.
Lemma dgetE_ok : forall (d : list (K * V)) k v, dgetE d k = Ok v <-> dget d k = Some v.
Proof. intros. unfold dgetE. destruct (dget d k); split; congruence. Qed.
End Upd.

Lemma dget_map_const : forall K V {EK : PyEq K} (l : list K) (v : V) k, dget (map (fun a => (a, v)) l) k = if pymem k l then Some v else None.
Proof.
  intros K V EK l v k. induction l as [|a l IH]; [reflexivity|]. cbn [map dget pymem existsb]. unfold pymem in *. cbn [existsb].
  destruct (pyeqb k a); [reflexivity|]. exact IH.
Qed.

Section P.
Context {St Act : Type} {ES : PyEq St} {EA : PyEq Act}.
Notation snode := (@snode St Act).
Notation anode := (@anode St).
Notation gph := (list (St * snode)).

(** * Graphs of the same shape *)
Record like (n n' : snode) : Prop := {
  k_term : s_term n' = s_term n;
  k_exp : s_exp n' = s_exp n;
  k_par : s_par n' = s_par n;
  k_keys : dkeys (s_acts n') = dkeys (s_acts n);
  k_out : forall a, option_map a_out (dget (s_acts n') a) = option_map a_out (dget (s_acts n) a) }.
Definition same (g g' : gph) : Prop := dkeys g' = dkeys g /\ forall s n, node g s n -> exists n', node g' s n' /\ like n n'.

Lemma like_refl : forall n, like n n.
Proof. intros n. constructor; auto. Qed.
Lemma like_trans : forall a b c, like a b -> like b c -> like a c.
Proof. intros a b c [] []. constructor; congruence. Qed.
Lemma like_sym : forall a b, like a b -> like b a.
Proof. intros a b []. constructor; congruence. Qed.
Lemma same_refl : forall g, same g g.
Proof. intros g. split; auto. intros s n N. exists n. split; auto. apply like_refl. Qed.
Lemma same_trans : forall a b c, same a b -> same b c -> same a c.
Proof.
  intros a b c [E1 H1] [E2 H2]. split; [congruence|]. intros s n N. destruct (H1 s n N) as (n1 & N1 & L1). destruct (H2 s n1 N1) as (n2 & N2 & L2).
  exists n2. split; auto. eapply like_trans; eauto.
Qed.
Lemma same_dmem : forall (g g' : gph) s, same g g' -> dmem g' s = dmem g s.
Proof.
  intros g g' s [E _]. destruct (dmem g s) eqn:D.
  - apply dmem_true. rewrite E. now apply dmem_true.
  - apply dmem_false. rewrite E. now apply dmem_false.
Qed.
Lemma same_sym : forall g g', same g g' -> same g' g.
Proof.
  intros g g' H. destruct H as [E H]. split; auto. intros s n' N'. assert (D : dmem g s = true).
  { apply dmem_true. rewrite <- E. rewrite dget_keys. exists n'. exact N'. }
  apply dmem_get in D as [n N]. exists n. split; auto. destruct (H s n N) as (n2 & N2 & L). unfold node in *. assert (n2 = n') by congruence.
  subst. now apply like_sym.
Qed.
Lemma same_upd : forall (g : gph) s f, (forall n, node g s n -> like n (f n)) -> same g (upd g s f).
Proof.
  intros g s f H. split; [apply dkeys_upd|]. intros k n N. unfold node in *. rewrite dget_upd, N. destruct (pyeqb_spec s k) as [->|Ne]; cbn.
  - exists (f n). split; auto.
  - exists n. split; auto. apply like_refl.
Qed.
Lemma same_anode : forall (g g' : gph) s a an, same g g' -> anode_of g s a an -> exists an', anode_of g' s a an' /\ a_out an' = a_out an.
Proof.
  intros g g' s a an [_ H] (n & N & D). destruct (H s n N) as (n' & N' & L). pose proof (k_out _ _ L a) as O. rewrite D in O. cbn in O.
  destruct (dget (s_acts n') a) as [an'|] eqn:D'; [|discriminate]. exists an'. split; [exists n'; auto|]. cbn in O. congruence.
Qed.
Lemma dget_dkeys_nil : forall (l : list (Act * anode)) a, l = [] -> dget l a = None.
Proof. intros l a ->. reflexivity. Qed.
Lemma nil_keys : forall A B (l l' : list (A * B)), map fst l' = map fst l -> l = [] -> l' = [].
Proof. intros A B l l' E ->. destruct l'; [reflexivity|discriminate]. Qed.

Lemma sound_same : forall ap next nx rew term roots (g g' : gph), same g g' -> sound ap next nx rew term roots g -> sound ap next nx rew term roots g'.
Proof.
  intros ap next nx rew term roots g g' S [A B C D E F G H I J]. pose proof (same_sym _ _ S) as S'.
  assert (Nd : forall s n', node g' s n' -> exists n, node g s n /\ like n n').
  { intros s n' N'. destruct S' as [_ S']. destruct (S' s n' N') as (n & N & L). exists n. split; auto. now apply like_sym. }
  constructor.
  - destruct S as [Ek _]. rewrite Ek. exact A.
  - intros s Is. rewrite (same_dmem _ _ s S). auto.
  - intros s Ds. rewrite (same_dmem _ _ s S) in Ds. auto.
  - intros s n' N'. destruct (Nd s n' N') as (n & N & L). destruct (D s n N) as [D1|D1].
    + left. exact (nil_keys _ _ _ _ (k_keys _ _ L) D1).
    + right. rewrite (k_keys _ _ L). exact D1.
  - intros s a an' Ha. destruct (same_anode _ _ _ _ _ S' Ha) as (an & Ha' & Eo). unfold complete in *. rewrite <- Eo. exact (E s a an Ha').
  - intros s a an' s' Ha Is. rewrite (same_dmem _ _ s' S). destruct (same_anode _ _ _ _ _ S' Ha) as (an & Ha' & Eo). rewrite <- Eo in Is. eauto.
  - intros s' n' s a N'. destruct (Nd s' n' N') as (n & N & L). rewrite (k_par _ _ L), (G s' n s a N). split; intros (an & Ha & Is).
    + destruct (same_anode _ _ _ _ _ S Ha) as (an' & Ha' & Eo). exists an'. rewrite Eo. auto.
    + destruct (same_anode _ _ _ _ _ S' Ha) as (an' & Ha' & Eo). exists an'. rewrite Eo. auto.
  - intros s n' N'. destruct (Nd s n' N') as (n & N & L). rewrite (k_term _ _ L). auto.
  - intros s n' a an' N' X Da. destruct (Nd s n' N') as (n & N & L). rewrite (k_exp _ _ L) in X. pose proof (k_out _ _ L a) as O.
    rewrite Da in O. cbn in O. destruct (dget (s_acts n) a) as [an|] eqn:Dn; [|discriminate]. cbn in O. injection O as O. rewrite O. eauto.
  - intros s n' N' X Y. destruct (Nd s n' N') as (n & N & L). rewrite (k_exp _ _ L) in X. apply (J s n N X). symmetry in Y.
    exact (nil_keys _ _ _ _ (eq_sym (k_keys _ _ L)) (eq_sym Y)).
Qed.

(** * Expansion of an action *)
Variable applicable : St -> list Act.
Variable next : St -> Act -> list (St * Q).
Variable reward : St -> Act -> St -> Q.
Variable terminal : St -> bool.
Variable heuristic : St -> Q * nat.

Lemma mass_snoc : forall (l : list (St * Q)) s p k, (mass (l ++ [(s, p)]) k == mass l k + (if pyeqb k s then p else 0))%Q.
Proof.
  intros l s p k. unfold mass. rewrite filter_app, map_app, fold_right_app. cbn [filter fst]. induction (map snd (filter (fun q => pyeqb k (fst q)) l)) as [|x m IH].
  - destruct (pyeqb k s); cbn; ring.
  - cbn [fold_right]. rewrite IH. ring.
Qed.
Lemma mass_pos : forall (l : list (St * Q)) s, (forall k p, In (k, p) l -> (0 < p)%Q) -> (0 <= mass l s)%Q.
Proof.
  intros l s H. induction l as [|[k p] l IH]; [apply Qle_refl|]. assert (IHl : (0 <= mass l s)%Q) by (apply IH; intros; apply (H k0); right; auto).
  unfold mass in *. cbn [filter fst]. destruct (pyeqb s k); [|exact IHl]. cbn [map fold_right snd]. pose proof (H k p (or_introl eq_refl)).
  apply (Qplus_le_compat 0 p 0 _); [now apply Qlt_le_weak|exact IHl].
Qed.

Lemma add_outcome_complete : forall (rew : St -> Q) l (an : anode) s p, complete rew l an -> (0 < p)%Q -> (forall k q, In (k, q) l -> (0 < q)%Q) ->
  complete rew (l ++ [(s, p)]) (add_outcome s (rew s) p an).
Proof.
  intros rew l an s p (N & K & V) P Pl. unfold add_outcome. destruct (dget (a_out an) s) as [o|] eqn:D.
  - unfold complete. cbn [a_out]. rewrite dkeys_upd. split; auto. split.
    + intros k. rewrite K, map_app, in_app_iff. cbn. split; [tauto|]. intros [H|[<-|[]]]; auto. apply K. rewrite dget_keys. eauto.
    + intros k r c w E. rewrite dget_upd in E. rewrite mass_snoc. destruct (pyeqb_spec s k) as [->|Ne].
      * rewrite D in E. destruct o as [[r0 c0] w0]. cbn in E. injection E as <- <- <-. destruct (V k r0 c0 w0 D) as [V1 V2].
        rewrite pyeqb_refl. split; [|rewrite V2; ring]. rewrite V1, V2. field. intros Z. pose proof (mass_pos l k Pl) as M.
        assert (0 < mass l k + p)%Q; [|rewrite Z in *; now apply (Qlt_irrefl 0)]. apply Qlt_le_trans with p; auto. rewrite <- (Qplus_0_l p) at 1.
        apply Qplus_le_compat; auto. apply Qle_refl.
      * destruct (V k r c w E) as [V1 V2]. split; auto. rewrite V2. destruct (pyeqb_spec k s); [congruence|]. ring.
  - assert (Ns : ~ In s (dkeys (a_out an))) by now apply dget_None.
    unfold complete. cbn [a_out]. unfold dkeys in *. rewrite map_app. cbn [map fst]. split; [now apply NoDup_snoc|]. split.
    + intros k. rewrite map_app, !in_app_iff, K. cbn. tauto.
    + intros k r c w E. rewrite (dget_snoc _ _ _ k) in E by (now apply dmem_false). rewrite mass_snoc. destruct (pyeqb_spec s k) as [->|Ne].
      * injection E as <- <- <-. split; [reflexivity|]. rewrite pyeqb_refl. assert (Z : (mass l k == 0)%Q); [|rewrite Z; ring].
        unfold mass. rewrite filter_none; [reflexivity|]. intros [x q] Ix. cbn. destruct (pyeqb_spec k x) as [<-|]; auto. exfalso. apply Ns, K.
        apply in_map_iff. exists (k, q). auto.
      * destruct (V k r c w E) as [V1 V2]. split; auto. rewrite V2. destruct (pyeqb_spec k s); [congruence|]. ring.
Qed.

Lemma add_outcome_keys : forall (s : St) r p (an : anode) k, In k (dkeys (a_out (add_outcome s r p an))) <-> k = s \/ In k (dkeys (a_out an)).
Proof.
  intros s r p an k. unfold add_outcome. destruct (dget (a_out an) s) as [o|] eqn:D; cbn [a_out].
  - rewrite dkeys_upd. split; [tauto|]. intros [->|H]; auto. rewrite dget_keys. eauto.
  - unfold dkeys. rewrite map_app, in_app_iff. cbn. intuition.
Qed.

(** The nodes after one turn. *)
Section Turn.
Variables (s : St) (a : Act) (s' : St) (p : Q) (g : gph) (un : list St) (ws : list Q).
Let fresh := negb (dmem g s').
Let out := expand_turn reward terminal heuristic s a (g, un, ws) (s', p).
Let g3 := fst (fst out).
Definition base (k : St) : option snode := if fresh && pyeqb s' k then Some new_node else dget g k.

Lemma turn_get : forall k, dget g3 k = option_map (fun n =>
    let n1 := if pyeqb s k then set_acts n (upd (s_acts n) a (add_outcome s' (reward s a s') p)) else n in
    if pyeqb s' k then
      let n2 := set_par n1 (pyadd (s_par n1) (s, a)) in
      if fresh then SN (terminal s') (s_exp n2) (s_acts n2) (fst (heuristic s')) (snd (heuristic s')) (s_par n2) else n2
    else n1) (base k).
Proof.
  intros k. assert (E : g3 = upd (upd (if fresh then g ++ [(s', new_node)] else g) s (fun n => set_acts n (upd (s_acts n) a (add_outcome s' (reward s a s') p)))) s'
    (fun n => let n := set_par n (pyadd (s_par n) (s, a)) in
              if fresh then SN (terminal s') (s_exp n) (s_acts n) (fst (heuristic s')) (snd (heuristic s')) (s_par n) else n)).
  { unfold g3, out, expand_turn. fold fresh. match goal with |- context [match dget ?x ?y with _ => _ end] => destruct (dget x y) as [n|] end; [|reflexivity].
    destruct (s_acts n); reflexivity. }
  rewrite E, !dget_upd. assert (B : dget (if fresh then g ++ [(s', new_node)] else g) k = base k).
  { unfold base, fresh. destruct (dmem g s') eqn:D; cbn [negb andb]; [reflexivity|]. now rewrite dget_snoc. }
  rewrite B. destruct (base k) as [n|]; cbn [option_map]; [|destruct (pyeqb s k), (pyeqb s' k); reflexivity].
  destruct (pyeqb s k); cbn [option_map]; destruct (pyeqb s' k); reflexivity.
Qed.

Lemma turn_node : forall k n3, node g3 k n3 -> exists n, base k = Some n /\
  s_acts n3 = (if pyeqb s k then upd (s_acts n) a (add_outcome s' (reward s a s') p) else s_acts n) /\
  s_par n3 = (if pyeqb s' k then pyadd (s_par n) (s, a) else s_par n) /\ s_exp n3 = s_exp n /\
  s_term n3 = (if fresh && pyeqb s' k then terminal s' else s_term n) /\
  (s_val n3, s_n n3) = (if fresh && pyeqb s' k then heuristic s' else (s_val n, s_n n)).
Proof.
  intros k n3 N. unfold node in N. rewrite turn_get in N. destruct (base k) as [n|]; [|discriminate]. cbn [option_map] in N. injection N as <-.
  exists n. split; auto. destruct (pyeqb s k), (pyeqb s' k), fresh; cbn [andb]; try (destruct (heuristic s') as [h1 h2]); cbn; repeat split; reflexivity.
Qed.
Lemma turn_dmem : forall k, dmem g3 k = dmem g k || pyeqb s' k.
Proof.
  intros k. unfold dmem at 1. rewrite turn_get. unfold base, fresh. destruct (pyeqb_spec s' k) as [->|N].
  - unfold dmem. destruct (dget g k); reflexivity.
  - rewrite andb_false_r. unfold dmem. destruct (dget g k); reflexivity.
Qed.
Lemma turn_keys : NoDup (dkeys g) -> NoDup (dkeys g3).
Proof.
  intros N. unfold g3, out, expand_turn. fold fresh. match goal with |- context [match dget ?x ?y with _ => _ end] => set (gg := x); assert (G : NoDup (dkeys gg)) end.
  { unfold gg. rewrite !dkeys_upd. unfold fresh. destruct (dmem g s') eqn:D; cbn [negb]; auto. unfold dkeys. rewrite map_app. cbn. apply NoDup_snoc; auto.
    now apply dmem_false. }
  destruct (dget gg s') as [n|]; [destruct (s_acts n)|]; exact G.
Qed.
(** The untried outcomes: the new state when it has no actions. *)
Lemma turn_untried : fst (fst out) = g3 /\ (snd (fst out) = un /\ snd out = ws \/ snd (fst out) = un ++ [s'] /\ snd out = ws ++ [p]).
Proof.
  split; [reflexivity|]. unfold out, expand_turn. fold fresh. match goal with |- context [match dget ?x ?y with _ => _ end] => destruct (dget x y) as [n|] end; [|auto].
  destruct (s_acts n); auto.
Qed.

Hypothesis Hs : dmem g s = true.
Lemma base_fresh : forall k, fresh && pyeqb s' k = true -> dmem g k = false /\ pyeqb s k = false.
Proof.
  intros k H. apply andb_true_iff in H as [F E]. destruct (pyeqb_spec s' k) as [<-|]; [|discriminate]. unfold fresh in F.
  apply negb_true_iff in F. split; auto. destruct (pyeqb_spec s s') as [<-|]; [congruence|reflexivity].
Qed.
Definition turn_act (k : St) (b : Act) (an : anode) : anode :=
  if pyeqb s k && pyeqb a b then add_outcome s' (reward s a s') p an else an.
Lemma turn_anode : forall k b an3, anode_of g3 k b an3 <-> exists an, anode_of g k b an /\ an3 = turn_act k b an.
Proof.
  intros k b an3. split.
  - intros (n3 & N3 & D). destruct (turn_node k n3 N3) as (n & B & A & _). unfold base in B. destruct (fresh && pyeqb s' k) eqn:F.
    + apply base_fresh in F as [_ F]. rewrite F in A. injection B as <-. cbn in A. rewrite A in D. discriminate.
    + rewrite A in D. unfold turn_act. destruct (pyeqb s k); cbn [andb].
      * rewrite dget_upd in D. destruct (pyeqb a b).
        -- destruct (dget (s_acts n) b) as [an|] eqn:Dn; [|discriminate]. cbn in D. injection D as <-. exists an. split; auto. exists n. auto.
        -- exists an3. split; auto. exists n. auto.
      * exists an3. split; auto. exists n. auto.
  - intros (an & (n & N & D) & ->). assert (F : fresh && pyeqb s' k = false).
    { destruct (fresh && pyeqb s' k) eqn:F; auto. apply base_fresh in F as [F _]. unfold dmem, node in *. rewrite N in F. discriminate. }
    assert (D3 : exists n3, node g3 k n3).
    { apply dmem_get. rewrite turn_dmem. unfold dmem, node in *. now rewrite N. }
    destruct D3 as [n3 N3]. destruct (turn_node k n3 N3) as (n' & B & A & _). unfold base in B. rewrite F in B. unfold node in N. rewrite N in B. injection B as <-.
    exists n3. split; auto. rewrite A. unfold turn_act. destruct (pyeqb s k); cbn [andb]; auto. rewrite dget_upd. destruct (pyeqb a b); auto. now rewrite D.
Qed.

Variables (nx nx' : St -> Act -> list (St * Q)) (roots : list St).
Hypothesis Ex : nx' s a = nx s a ++ [(s', p)].
Hypothesis Eo : forall k b, (k, b) <> (s, a) -> nx' k b = nx k b.
Hypothesis Pos : forall k q, In (k, q) (nx s a) -> (0 < q)%Q.
Hypothesis Pp : (0 < p)%Q.
Hypothesis Ha : In a (applicable s).
Hypothesis Hn : In (s', p) (next s a).
Hypothesis Hc : exists an, anode_of g s a an /\ complete (reward s a) (nx s a) an.

Lemma turn_sound : sound applicable next nx reward terminal roots g ->
  sound applicable next nx' reward terminal roots g3 /\ exists an, anode_of g3 s a an /\ complete (reward s a) (nx' s a) an.
Proof.
  intros [A B C D E F G H I J]. assert (Cp : exists an, anode_of g3 s a an /\ complete (reward s a) (nx' s a) an).
  { destruct Hc as (an & Ka & Kc). exists (turn_act s a an). split; [apply turn_anode; eauto|]. unfold turn_act. rewrite !pyeqb_refl. cbn [andb].
    rewrite Ex. now apply add_outcome_complete. }
  split; auto. constructor.
  - now apply turn_keys.
  - intros k Ik. rewrite turn_dmem, (B k Ik). reflexivity.
  - intros k Dk. rewrite turn_dmem in Dk. apply orb_true_iff in Dk as [Dk|Dk]; auto. destruct (pyeqb_spec s' k) as [E1|E1]; [rewrite <- E1|discriminate].
    eapply Reach_step; eauto.
  - intros k n3 N3. destruct (turn_node k n3 N3) as (n & Bn & An & _). rewrite An. unfold base in Bn. destruct (fresh && pyeqb s' k) eqn:Fr.
    + injection Bn as <-. left. apply base_fresh in Fr as [_ Fr]. rewrite Fr. reflexivity.
    + destruct (pyeqb s k); auto. rewrite dkeys_upd. destruct (D k n Bn) as [Z|Z]; auto. left. rewrite Z. reflexivity.
  - intros k b an3 K3. apply turn_anode in K3 as (an & K & ->). unfold turn_act. destruct (pyeqb_spec s k) as [<-|Nk]; cbn [andb].
    + destruct (pyeqb_spec a b) as [<-|Nb].
      * destruct Cp as (an2 & (n2 & N2 & D2) & Kc). right. assert (Q2 : anode_of g3 s a (turn_act s a an)) by (apply turn_anode; eauto).
        unfold turn_act in Q2. rewrite !pyeqb_refl in Q2. cbn [andb] in Q2. destruct Q2 as (n4 & N4 & D4). unfold node in *. assert (n4 = n2) by congruence. subst n4.
        assert (Eq : add_outcome s' (reward s a s') p an = an2) by congruence. rewrite Eq. exact Kc.
      * rewrite Eo by congruence. exact (E s b an K).
    + rewrite Eo by congruence. exact (E k b an K).
  - intros k b an3 k' K3 Ik. apply turn_anode in K3 as (an & K & ->). rewrite turn_dmem. unfold turn_act in Ik.
    destruct (pyeqb s k && pyeqb a b); [|rewrite (F k b an k' K Ik); reflexivity].
    apply add_outcome_keys in Ik as [->|Ik]; [rewrite pyeqb_refl; apply orb_true_r|]. rewrite (F k b an k' K Ik). reflexivity.
  - intros k' n3 k b N3. destruct (turn_node k' n3 N3) as (n & Bn & _ & Pn & _).
    assert (Old : In (k, b) (s_par n) <-> exists an, anode_of g k b an /\ In k' (dkeys (a_out an))).
    { unfold base in Bn. destruct (fresh && pyeqb s' k') eqn:Fr; [|exact (G k' n k b Bn)]. injection Bn as <-. split; [intros []|].
      intros (an & K & Ik). apply base_fresh in Fr as [Fr _]. pose proof (F k b an k' K Ik). congruence. }
    rewrite Pn. split.
    + intros Ik. assert (Q2 : (pyeqb s' k' = true /\ (k, b) = (s, a)) \/ In (k, b) (s_par n)).
      { destruct (pyeqb s' k'); auto. apply pyadd_In in Ik as [Ik|Ik]; auto. }
      destruct Q2 as [(E1 & E2)|Q2].
      * injection E2 as -> ->. destruct (pyeqb_spec s' k') as [<-|]; [|discriminate]. destruct Hc as (an & K & _). exists (turn_act s a an).
        split; [apply turn_anode; eauto|]. unfold turn_act. rewrite !pyeqb_refl. cbn [andb]. apply add_outcome_keys. auto.
      * apply Old in Q2 as (an & K & Ia). exists (turn_act k b an). split; [apply turn_anode; eauto|]. unfold turn_act.
        destruct (pyeqb s k && pyeqb a b); auto. apply add_outcome_keys. auto.
    + intros (an3 & K3 & Ik). apply turn_anode in K3 as (an & K & ->). unfold turn_act in Ik. destruct (pyeqb_spec s k) as [<-|Nk]; cbn [andb] in Ik.
      * destruct (pyeqb_spec a b) as [<-|Nb].
        -- apply add_outcome_keys in Ik as [->|Ik]; [rewrite pyeqb_refl; apply pyadd_In; auto|].
           assert (O : In (s, a) (s_par n)) by (apply Old; eauto). destruct (pyeqb s' k'); auto. apply pyadd_In. auto.
        -- assert (O : In (s, b) (s_par n)) by (apply Old; eauto). destruct (pyeqb s' k'); auto. apply pyadd_In. auto.
      * assert (O : In (k, b) (s_par n)) by (apply Old; eauto). destruct (pyeqb s' k'); auto. apply pyadd_In. auto.
  - intros k n3 N3. destruct (turn_node k n3 N3) as (n & Bn & _ & _ & _ & Tn & _). rewrite Tn. unfold base in Bn.
    destruct (fresh && pyeqb s' k) eqn:Fr; [|exact (H k n Bn)]. left. apply andb_true_iff in Fr as [_ Fr].
    destruct (pyeqb_spec s' k) as [<-|]; [reflexivity|discriminate].
  - intros k n3 b an3 N3 X3 D3. destruct (turn_node k n3 N3) as (n & Bn & _ & _ & Xn & _). rewrite Xn in X3.
    assert (K3 : anode_of g3 k b an3) by (exists n3; auto). apply turn_anode in K3 as (an & (n' & N' & D') & ->).
    unfold base in Bn. destruct (fresh && pyeqb s' k) eqn:Fr; [injection Bn as <-; discriminate|]. unfold node in N'. assert (n' = n) by congruence. subst n'.
    pose proof (I k n b an Bn X3 D') as Q2. unfold turn_act. destruct (pyeqb s k && pyeqb a b); auto. intros Z.
    assert (Q3 : In s' (dkeys (a_out (add_outcome s' (reward s a s') p an)))) by (apply add_outcome_keys; auto). rewrite Z in Q3. exact Q3.
  - intros k n3 N3 X3 Z3. destruct (turn_node k n3 N3) as (n & Bn & An & _ & Xn & _). rewrite Xn in X3. unfold base in Bn.
    destruct (fresh && pyeqb s' k) eqn:Fr; [injection Bn as <-; discriminate|]. apply (J k n Bn X3). rewrite An in Z3. destruct (pyeqb s k); auto.
    unfold upd in Z3. now apply map_eq_nil in Z3.
Qed.
End Turn.

Lemma sound_ext : forall nx nx' roots g, (forall k b, nx' k b = nx k b) -> sound applicable next nx reward terminal roots g ->
  sound applicable next nx' reward terminal roots g.
Proof. intros nx nx' roots g H [A B C D E F G H' I J]. constructor; auto. intros s a an K. rewrite H. auto. Qed.

(** Values of visited nodes satisfy [P]. *)
Definition bounded (P : Q -> Prop) (g : gph) : Prop :=
  (forall k n, node g k n -> 0 < s_n n -> P (s_val n)) /\ (forall k b an, anode_of g k b an -> 0 < a_n an -> P (a_val an)).
(** All expanded actions but one have been visited. *)
Definition visited_but (s : St) (a : Act) (g : gph) : Prop :=
  forall k b an, anode_of g k b an -> (k, b) <> (s, a) -> a_out an <> [] -> 0 < a_n an.

Section Expand.
Variables (s : St) (a : Act) (P : Q -> Prop).
Hypothesis Pos : forall k q, In (k, q) (next s a) -> (0 < q)%Q.
Hypothesis Ha : In a (applicable s).
Hypothesis Heur : forall k, 0 < snd (heuristic k) -> P (fst (heuristic k)).
Let nxp (pre : list (St * Q)) (k : St) (b : Act) : list (St * Q) := if pyeqb s k && pyeqb a b then pre else next k b.

Record expanding (roots : list St) (g0 : gph) (pre : list (St * Q)) (acc : gph * list St * list Q) : Prop := {
  x_sound : sound applicable next (nxp pre) reward terminal roots (fst (fst acc));
  x_comp : exists an, anode_of (fst (fst acc)) s a an /\ complete (reward s a) pre an;
  x_un : forall k, In k (snd (fst acc)) -> In k (map fst pre);
  x_len : length (snd acc) = length (snd (fst acc));
  x_mono : forall k n, node g0 k n -> exists n', node (fst (fst acc)) k n' /\ s_exp n' = s_exp n /\ s_n n' = s_n n /\ s_term n' = s_term n /\ (s_acts n = [] -> s_acts n' = []);
  x_grow : forall k b an, anode_of g0 k b an -> exists an', anode_of (fst (fst acc)) k b an' /\ a_n an' = a_n an /\ incl (dkeys (a_out an)) (dkeys (a_out an'));
  x_new : forall k, dmem (fst (fst acc)) k = true -> dmem g0 k = true \/ In k (map fst pre);
  x_ok : visits_ok g0 -> visits_ok (fst (fst acc));
  x_vis : visited_but s a g0 -> visited_but s a (fst (fst acc));
  x_bound : bounded P g0 -> bounded P (fst (fst acc)) }.

Lemma add_outcome_n : forall s' r p (an : anode), a_n (add_outcome s' r p an) = a_n an /\ a_val (add_outcome s' r p an) = a_val an.
Proof. intros. unfold add_outcome. destruct (dget (a_out an) s'); auto. Qed.

Lemma expanding_turn : forall roots g0 pre acc x, incl (pre ++ [x]) (next s a) -> expanding roots g0 pre acc ->
  expanding roots g0 (pre ++ [x]) (expand_turn reward terminal heuristic s a acc x).
Proof.
  intros roots g0 pre [[g un] ws] [s' p] Inc [X1 X2 X3 X4 X5 Xg Xw X6 X7 X8]. cbn [fst snd] in *.
  assert (Hs : dmem g s = true) by (destruct X2 as (an & (n & N & _) & _); apply dmem_get; eauto).
  assert (Hn : In (s', p) (next s a)) by (apply Inc, in_or_app; right; left; reflexivity).
  pose proof (turn_anode s a s' p g un ws Hs) as TA. pose proof (turn_node s a s' p g un ws) as TN.
  destruct (turn_untried s a s' p g un ws) as [E3 TU].
  set (out := expand_turn reward terminal heuristic s a (g, un, ws) (s', p)) in *.
  assert (Rr : nxp pre s a = pre) by (unfold nxp; now rewrite !pyeqb_refl).
  assert (Mono : forall k n, node g k n -> exists n', node (fst (fst out)) k n' /\ s_exp n' = s_exp n /\ s_n n' = s_n n /\ s_term n' = s_term n /\ (s_acts n = [] -> s_acts n' = [])).
  { intros k n N. assert (D3 : exists n3, node (fst (fst out)) k n3).
    { apply dmem_get. unfold out. rewrite turn_dmem. unfold dmem, node in *. now rewrite N. }
    destruct D3 as [n3 N3]. exists n3. split; auto. destruct (TN k n3 N3) as (n' & B & A & _ & X & T & V). unfold base in B.
    destruct (negb (dmem g s') && pyeqb s' k) eqn:Fr.
    - apply andb_true_iff in Fr as [F1 F2]. destruct (pyeqb_spec s' k) as [E|]; [|discriminate]. unfold dmem, node in *. subst k. rewrite N in F1. discriminate.
    - unfold node in N. rewrite N in B. injection B as <-. injection V as _ V. split; [exact X|]. split; [exact V|]. split; [exact T|]. intros Z. rewrite A, Z.
      destruct (pyeqb s k); reflexivity. }
  destruct (turn_sound s a s' p g un ws Hs (nxp pre) (nxp (pre ++ [(s', p)])) roots) as [T1 T2]; auto.
  { rewrite Rr. unfold nxp. now rewrite !pyeqb_refl. }
  { intros k b N. unfold nxp. destruct (pyeqb_spec s k) as [<-|]; [|reflexivity]. destruct (pyeqb_spec a b) as [<-|]; [congruence|reflexivity]. }
  { intros k q I. rewrite Rr in I. apply (Pos k). apply Inc, in_or_app. auto. }
  { apply (Pos s'). exact Hn. }
  { rewrite Rr. exact X2. }
  constructor.
  - exact T1.
  - unfold nxp in T2 at 1. rewrite !pyeqb_refl in T2. exact T2.
  - intros k I. rewrite map_app. apply in_or_app. destruct TU as [[U _]|[U _]]; rewrite U in I; [left; auto|]. apply in_app_or in I as [I|[<-|[]]]; [left; auto|right; left; reflexivity].
  - destruct TU as [[U W]|[U W]]; rewrite U, W; auto. rewrite !app_length. cbn. lia.
  - intros k n N. destruct (X5 k n N) as (n1 & N1 & Q1 & Q2 & Q3 & Q4). destruct (Mono k n1 N1) as (n2 & N2 & Q1' & Q2' & Q3' & Q4'). exists n2. split; auto.
    split; [congruence|]. split; [congruence|]. split; [congruence|auto].
  - intros k b an K. destruct (Xg k b an K) as (an1 & K1 & N1 & O1). exists (turn_act s a s' p k b an1). split; [apply TA; eauto|]. unfold turn_act.
    destruct (pyeqb s k && pyeqb a b); auto. destruct (add_outcome_n s' (reward s a s') p an1) as [N2 _]. split; [congruence|]. intros z Iz.
    apply add_outcome_keys. right. apply O1, Iz.
  - intros k Dk. unfold out in Dk. rewrite turn_dmem in Dk. apply orb_true_iff in Dk as [Dk|Dk].
    + destruct (Xw k Dk) as [W|W]; [left; auto|right; rewrite map_app; apply in_or_app; auto].
    + right. rewrite map_app. apply in_or_app. right. left. destruct (pyeqb_spec s' k); [auto|discriminate].
  - intros V0. specialize (X6 V0). intros k b an3 K3 Pn. apply TA in K3 as (an & K & ->). unfold turn_act in *. destruct (pyeqb s k && pyeqb a b); [|eauto].
    intros Z. assert (Q : In s' (dkeys (a_out (add_outcome s' (reward s a s') p an)))) by (apply add_outcome_keys; auto). rewrite Z in Q. exact Q.
  - intros V0. specialize (X7 V0). intros k b an3 K3 Ne O3. apply TA in K3 as (an & K & ->). unfold turn_act in *. destruct (pyeqb_spec s k) as [<-|]; cbn [andb] in *; [|eauto].
    destruct (pyeqb_spec a b) as [<-|]; [congruence|eauto].
  - intros V0. destruct (X8 V0) as [B1 B2]. split.
    + intros k n3 N3 Pn. destruct (TN k n3 N3) as (n & B & _ & _ & _ & _ & V). unfold base in B. destruct (negb (dmem g s') && pyeqb s' k).
      * destruct (heuristic s') as [h1 h2] eqn:Eh. injection V as V1 V2. rewrite V1. pose proof (Heur s') as Hh. rewrite Eh in Hh. apply Hh. cbn. lia.
      * injection V as V1 V2. rewrite V1. apply (B1 k n B). lia.
    + intros k b an3 K3 Pn. apply TA in K3 as (an & K & ->). unfold turn_act in *. destruct (pyeqb s k && pyeqb a b); [|eauto].
      destruct (add_outcome_n s' (reward s a s') p an) as [N1 N2]. rewrite N1 in Pn. rewrite N2. eauto.
Qed.

Lemma expanding_all : forall roots g0 an0, sound applicable next next reward terminal roots g0 -> anode_of g0 s a an0 -> a_out an0 = [] ->
  expanding roots g0 (next s a) (fold_left (expand_turn reward terminal heuristic s a) (next s a) (g0, [], [])).
Proof.
  intros roots g0 an0 So K O.
  assert (Start : expanding roots g0 [] (g0, [], [])).
  { constructor; cbn [fst snd].
    - destruct So as [A B C D E F G H I J]. constructor; auto. intros k b an Kb. unfold nxp. destruct (pyeqb_spec s k) as [<-|]; cbn [andb]; auto.
      destruct (pyeqb_spec a b) as [<-|]; auto. left. destruct K as (n & N & Dn), Kb as (n' & N' & Dn'). unfold node in *. congruence.
    - exists an0. split; auto. unfold complete. rewrite O. cbn. split; [constructor|]. split; [tauto|]. discriminate.
    - intros k [].
    - reflexivity.
    - intros k n N. exists n. auto.
    - intros k b an Kb. exists an. split; auto. split; [auto|apply incl_refl].
    - intros k Dk. left. exact Dk.
    - auto.
    - auto.
    - auto. }
  assert (G : forall l pre acc, next s a = pre ++ l -> expanding roots g0 pre acc ->
    expanding roots g0 (next s a) (fold_left (expand_turn reward terminal heuristic s a) l acc)).
  { induction l as [|x l IH]; intros pre acc E X.
    - rewrite app_nil_r in E. rewrite E. exact X.
    - cbn [fold_left]. apply (IH (pre ++ [x])); [now rewrite <- app_assoc|]. apply expanding_turn; auto. rewrite E. intros y I. apply in_app_or in I.
      apply in_or_app. destruct I as [I|[<-|[]]]; [auto|right; left; reflexivity]. }
  apply (G (next s a) []); auto.
Qed.
Lemma expanding_done : forall roots g0 acc, expanding roots g0 (next s a) acc -> sound applicable next next reward terminal roots (fst (fst acc)).
Proof.
  intros roots g0 acc X. eapply sound_ext; [|exact (x_sound _ _ _ _ X)]. intros k b. unfold nxp. destruct (pyeqb_spec s k) as [<-|]; [|reflexivity].
  destruct (pyeqb_spec a b) as [<-|]; reflexivity.
Qed.
End Expand.
End P.

(** Proofs about shared-memory domains. *)
From Coq Require Import String.
From Coq Require Import List Bool Arith Ascii Lia.
From Verif Require Import Py PyList ShmModel ShmSpec.
Import ListNotations.
Open Scope nat_scope.

(** * The layout *)
Record good (reg : declaration) (lay : layout) : Prop := Good {
  g_in : forall T c sz, In (T, c, sz) reg -> 0 < c -> exists st,
    dget (l_regs lay) T = Some (st, st + c * sz) /\ dget (l_sizes lay) T = Some sz /\
    st + c * sz <= l_rsize lay /\ forall o, o < c -> dget (l_types lay) (st + o * sz) = Some T;
  g_apart : forall T T' st en st' en', T <> T' -> dget (l_regs lay) T = Some (st, en) ->
    dget (l_regs lay) T' = Some (st', en') -> en <= st' \/ en' <= st;
  g_only : forall T st en, dget (l_regs lay) T = Some (st, en) -> exists c sz,
    In (T, c, sz) reg /\ 0 < c /\ en = st + c * sz /\ dget (l_sizes lay) T = Some sz /\ en <= l_rsize lay;
  g_types : forall p T, dget (l_types lay) p = Some T -> exists c sz,
    In (T, c, sz) reg /\ 0 < sz /\ dget (l_sizes lay) T = Some sz /\ p + sz <= l_rsize lay
}.

Lemma types_step : forall T j sz os (d : list (nat * string)), 0 < sz ->
  (forall o, In o os -> dget (fold_left (fun d o => dset d (j + o * sz) T) os d) (j + o * sz) = Some T) /\
  (forall p, (forall o, In o os -> p <> j + o * sz) -> dget (fold_left (fun d o => dset d (j + o * sz) T) os d) p = dget d p).
Proof.
  intros T j sz os. induction os as [|a os IH]; intros d Z; cbn; [split; [intros o []|auto]|].
  destruct (IH (dset d (j + a * sz) T) Z) as (A & B). split.
  - intros o [<-|I]; [|auto]. destruct (in_dec Nat.eq_dec a os) as [I|I]; [auto|].
    rewrite B; [apply dget_dset_same|]. intros o I'. intros E. assert (o = a) by nia. subst. auto.
  - intros p N. rewrite B by auto. rewrite dget_dset_other; auto. intros E. apply (N a); auto.
Qed.

Lemma good_step : forall reg lay T c sz lay', good reg lay -> ~ In T (map (fun r => fst (fst r)) reg) -> 0 < sz ->
  declare lay (T, c, sz) = Ok lay' -> good (reg ++ [(T, c, sz)]) lay'.
Proof.
  intros reg lay T c sz lay' G N Z E. cbn in E. destruct (Nat.eqb_spec c 0).
  { injection E as <-. destruct G as [Gi Ga Go Gt]. split; auto.
    - intros T' c' sz' I P. apply in_app_iff in I as [I|[I|[]]]; [eauto|]. injection I as <- <- <-. lia.
    - intros T' st en H. destruct (Go _ _ _ H) as (c' & sz' & I & R). exists c', sz'. split; [apply in_app_iff; auto|auto].
    - intros p T' H. destruct (Gt _ _ H) as (c' & sz' & I & R). exists c', sz'. split; [apply in_app_iff; auto|auto]. }
  destruct (Nat.eqb_spec sz 0); [lia|]. injection E as <-. destruct G as [Gi Ga Go Gt].
  assert (NN : forall st en, dget (l_regs lay) T <> Some (st, en)).
  { intros st en H. destruct (Go _ _ _ H) as (c' & sz' & I & _). apply N. apply in_map_iff. now exists (T, c', sz'). }
  destruct (types_step T (l_rsize lay) sz (seq 0 c) (l_types lay) Z) as (TA & TB).
  split; cbn.
  - intros T' c' sz' I P. apply in_app_iff in I as [I|[I|[]]].
    + assert (T <> T') by (intros ->; apply N, in_map_iff; now exists (T', c', sz')).
      destruct (Gi _ _ _ I P) as (st & A & B & Le & O). exists st. rewrite !dget_dset_other by auto.
      repeat split; auto; [lia|]. intros o Lo. rewrite TB; auto. intros o' I' E.
      destruct (Gt _ _ (O o Lo)) as (? & ? & _ & ? & _ & ?). lia.
    + injection I as <- <- <-. exists (l_rsize lay). rewrite !dget_dset_same. repeat split; auto.
      intros o Lo. apply TA. apply in_seq. lia.
  - intros T1 T2 st en st' en' NE H1 H2. rewrite dget_dset in H1, H2.
    destruct (pyeqb_spec T T1) as [E1|E1]; [injection H1 as <- <-|]; (destruct (pyeqb_spec T T2) as [E2|E2]; [injection H2 as <- <-|]).
    + congruence.
    + destruct (Go _ _ _ H2) as (? & ? & _ & _ & _ & _ & L). lia.
    + destruct (Go _ _ _ H1) as (? & ? & _ & _ & _ & _ & L). lia.
    + eapply (Ga T1 T2); eauto.
  - intros T1 st en H. rewrite dget_dset in H. destruct (pyeqb_spec T T1) as [<-|NT].
    + injection H as <- <-. exists c, sz. rewrite in_app_iff, dget_dset_same. cbn. repeat split; auto; lia.
    + destruct (Go _ _ _ H) as (c' & sz' & I & P & -> & S & L). exists c', sz'. rewrite in_app_iff, dget_dset_other by auto.
      repeat split; auto; lia.
  - intros p T1 H. destruct (in_dec Nat.eq_dec p (map (fun o => l_rsize lay + o * sz) (seq 0 c))) as [I|I].
    + apply in_map_iff in I as (o & <- & I). rewrite TA in H by auto. injection H as <-. apply in_seq in I.
      exists c, sz. rewrite in_app_iff, dget_dset_same. repeat split; auto; [right; now left|nia].
    + rewrite TB in H; [|intros o I' ->; apply I, in_map_iff; eauto].
      destruct (Gt _ _ H) as (c' & sz' & I1 & Z1 & S1 & L1). exists c', sz'.
      assert (T <> T1) by (intros ->; apply N, in_map_iff; now exists (T1, c', sz')).
      rewrite in_app_iff, dget_dset_other by auto. repeat split; auto; lia.
Qed.

Lemma good_build : forall reg lay, proper reg -> build reg = Ok lay -> good reg lay.
Proof.
  intros reg. induction reg as [|[[T c] sz] reg IH] using rev_ind; intros lay (N & Z) E.
  - injection E as <-. split; cbn; try discriminate. intros ? ? ? [].
  - unfold build in E. rewrite foldM_app in E. apply bind_ok in E as (l1 & E1 & E). cbn in E.
    apply bind_ok in E as (l2 & E2 & E). injection E as <-.
    rewrite map_app in N. cbn in N. apply NoDup_remove in N as (N & NI). rewrite app_nil_r in N, NI.
    eapply good_step; eauto.
    + apply IH; [split; auto; intros; eapply Z; apply in_app_iff; eauto|auto].
    + eapply Z. apply in_app_iff. right. left. reflexivity.
Qed.

Lemma build_total : forall reg, proper reg -> exists lay, build reg = Ok lay.
Proof.
  intros reg (_ & Z). unfold build. generalize (Lay [] [] [] 0). induction reg as [|[[T c] sz] reg IH]; intros l; [now exists l|].
  cbn. destruct (c =? 0); cbn; [apply IH; intros; eapply Z; right; eauto|].
  destruct (Nat.eqb_spec sz 0); [specialize (Z T c sz (or_introl eq_refl)); lia|]. cbn. apply IH; intros; eapply Z; right; eauto.
Qed.

(** * Cells and names *)
Lemma slice_length : forall C (m : nat -> C) si sz, length (slice m si sz) = sz.
Proof. intros. unfold slice. now rewrite map_length, seq_length. Qed.

Lemma slice_ext : forall C (m m' : nat -> C) si sz, (forall k, si <= k < si + sz -> m k = m' k) -> slice m si sz = slice m' si sz.
Proof. intros C m m' si sz H. apply map_ext_in. intros k I. apply in_seq in I. auto. Qed.

Lemma write_out : forall C (m : nat -> C) si l k, k < si \/ si + length l <= k -> write m si l k = m k.
Proof.
  intros C m si l k H. unfold write. destruct (Nat.leb_spec si k); [|auto].
  destruct (nth_error l (k - si)) eqn:E; [|auto]. assert (k - si < length l) by (apply nth_error_Some; congruence). lia.
Qed.

Lemma slice_write : forall C (m : nat -> C) si l, slice (write m si l) si (length l) = l.
Proof.
  intros C m si l. apply nth_error_ext. intros k. unfold slice. destruct (Nat.lt_ge_cases k (length l)) as [H|H].
  - rewrite (map_nth_error _ k (seq si (length l)) (d := si + k)).
    + unfold write. destruct (Nat.leb_spec si (si + k)); [|lia]. replace (si + k - si) with k by lia.
      destruct (nth_error l k) eqn:E; auto. apply nth_error_None in E. lia.
    + rewrite (nth_error_nth' _ 0) by (rewrite seq_length; lia). now rewrite seq_nth by lia.
  - rewrite (proj2 (nth_error_None _ _)) by (rewrite map_length, seq_length; lia).
    symmetry. apply nth_error_None. lia.
Qed.

Lemma get_string_pad : forall name k, ~ In zero name -> get_string (name ++ repeat zero k) = name.
Proof.
  induction name as [|c name IH]; intros k N; cbn.
  - destruct k; reflexivity.
  - destruct (Ascii.eqb_spec c zero); [exfalso; apply N; left; auto|]. f_equal. apply IH. intros I. apply N. now right.
Qed.

Section Any.
Variables V C D : Type.
Variable typ : V -> string.
Variable is_none : V -> bool.
Variable enc : V -> list C -> list C.
Variable dec : string -> list C -> V.
Variable run : D -> func -> list V -> D * outcome V.
Variable reg : declaration.
Variable lay : layout.
Hypothesis Hp : proper reg.
Hypothesis Hb : build reg = Ok lay.
Hypothesis Hl : lawful typ enc dec reg.

Notation count := (count typ).
Notation store := (store typ enc lay).
Notation fetch := (fetch dec lay).
Notation fits := (fits typ).
Notation slim := (slim typ).

Local Lemma G : good reg lay.
Proof. apply good_build; auto. Qed.

Lemma reg_once : forall T c sz c' sz', In (T, c, sz) reg -> In (T, c', sz') reg -> c = c' /\ sz = sz'.
Proof.
  destruct Hp as (N & _). intros T c sz c' sz' I I'. clear Hb Hl Hp. induction reg as [|r l IH]; [destruct I|].
  cbn in N. apply NoDup_cons_iff in N as (N & N').
  destruct I as [->|I], I' as [E|I'].
  - now injection E as <- <-.
  - exfalso. apply N, in_map_iff. now exists (T, c', sz').
  - subst r. exfalso. apply N, in_map_iff. now exists (T, c, sz).
  - auto.
Qed.

Lemma count_app : forall T l l', count T (l ++ l') = count T l + count T l'.
Proof. intros. unfold ShmSpec.count. now rewrite filter_app, app_length. Qed.

Lemma count_one : forall T v, count T [v] = if String.eqb (typ v) T then 1 else 0.
Proof. intros. unfold ShmSpec.count. cbn. now destruct (String.eqb _ _). Qed.

Lemma count_pos : forall v l, In v l -> 0 < count (typ v) l.
Proof.
  intros v l I. apply in_split in I as (a & b & ->). rewrite count_app. change (v :: b) with ([v] ++ b).
  rewrite count_app, count_one, String.eqb_refl. lia.
Qed.

(** There is room in the parameters for values that fit. *)
Lemma fits_length : forall l, fits reg l -> length l <= slots reg.
Proof.
  destruct Hp as (N & _). clear Hb Hl Hp. revert N. induction reg as [|[[T c] sz] r IH]; intros N l F.
  - destruct l as [|v l]; [cbn; lia|]. destruct (F v (or_introl eq_refl)) as (? & ? & [] & _).
  - cbn in N. apply NoDup_cons_iff in N as (NI & N). cbn [slots fold_right fst snd].
    set (l' := filter (fun v => negb (String.eqb (typ v) T)) l).
    assert (E : length l = count T l + length l').
    { unfold l', ShmSpec.count. clear. induction l as [|v l IH]; cbn [filter length]; auto. destruct (String.eqb (typ v) T); cbn [negb length]; lia. }
    assert (Cc : count T l <= c).
    { destruct (Nat.eq_dec (count T l) 0) as [Q|Q]; [lia|].
      assert (exists v, In v l /\ typ v = T) as (v & I & <-).
      { unfold ShmSpec.count in Q. destruct (filter (fun v => String.eqb (typ v) T) l) as [|v q] eqn:Ef; [cbn in Q; lia|].
        assert (I : In v (v :: q)) by now left. rewrite <- Ef in I. apply filter_In in I as (I & Ev). apply String.eqb_eq in Ev. eauto. }
      destruct (F v I) as (c' & sz' & [Q'|I'] & L).
      - injection Q' as <- <-. auto.
      - exfalso. apply NI, in_map_iff. now exists (typ v, c', sz'). }
    assert (L : length l' <= slots r).
    { apply (IH N). intros v I. unfold l' in I. apply filter_In in I as (I & Nv). apply negb_true_iff, String.eqb_neq in Nv.
      destruct (F v I) as (c' & sz' & [Q'|I'] & L); [injection Q'; intros; congruence|].
      exists c', sz'. split; auto. replace (count (typ v) l') with (count (typ v) l); auto.
      unfold l', ShmSpec.count. clear - Nv. induction l as [|w l IH]; cbn; auto.
      destruct (String.eqb_spec (typ w) T); cbn.
      - destruct (String.eqb_spec (typ w) (typ v)); cbn; [congruence|auto].
      - destruct (String.eqb_spec (typ w) (typ v)); cbn; [f_equal|]; auto. }
    unfold slots in L. lia.
Qed.

(** * Storing *)
(** The counters after values [l]. *)
Definition tally (l : list V) (counters : list (string * nat)) : Prop :=
  forall T, (count T l = 0 /\ dget counters T = None) \/
    (0 < count T l /\ exists st c sz, dget (l_regs lay) T = Some (st, st + c * sz) /\ dget (l_sizes lay) T = Some sz /\
       In (T, c, sz) reg /\ 0 < sz /\ count T l <= c /\ dget counters T = Some (st + (count T l - 1) * sz) /\ st + c * sz <= l_rsize lay).

Lemma tally_nil : tally [] [].
Proof. intros T. left. split; reflexivity. Qed.

(** The register of the next value. *)
Lemma tally_next : forall l counters v st en sz (inc : nat -> nat), tally l counters ->
  dget (l_regs lay) (typ v) = Some (st, en) -> dget (l_sizes lay) (typ v) = Some sz ->
  (0 < count (typ v) l -> inc sz = sz) ->
  let k := match dget counters (typ v) with Some c => c + inc sz | None => st end in
  0 < sz /\ k = st + count (typ v) l * sz /\ exists c, In (typ v, c, sz) reg /\ en = st + c * sz /\ en <= l_rsize lay /\
  (dmem counters (typ v) && (en <=? k) = false <-> count (typ v) l + 1 <= c) /\
  (count (typ v) l + 1 <= c -> tally (l ++ [v]) (dset counters (typ v) k)).
Proof.
  intros l counters v st en sz inc Ta Er Es Ei k. destruct (g_only _ _ G _ _ _ Er) as (c & sz' & I & P & -> & Es' & Le).
  assert (sz' = sz) by congruence. subst sz'. clear Es'.
  assert (Z : 0 < sz) by (destruct Hp as (_ & Z); eauto). split; auto.
  assert (K : k = st + count (typ v) l * sz).
  { unfold k. destruct (Ta (typ v)) as [(Q & E)|(Q & st' & c' & sz' & Er' & Es' & _ & _ & _ & E & _)]; rewrite E.
    - rewrite Q. lia.
    - rewrite Ei by auto. assert (st' = st) by congruence. assert (sz' = sz) by congruence. subst.
      replace (count (typ v) l) with (S (count (typ v) l - 1)) at 2 by lia. cbn. lia. }
  split; auto. exists c. repeat split; auto.
  - intros H. apply andb_false_iff in H as [H|H].
    + destruct (Ta (typ v)) as [(Q & E)|(Q & st' & c' & sz' & _ & _ & _ & _ & _ & E & _)]; [lia|].
      unfold dmem in H. rewrite E in H. discriminate.
    + apply Nat.leb_gt in H. rewrite K in H. nia.
  - intros H. apply andb_false_iff. right. apply Nat.leb_gt. rewrite K. nia.
  - intros H T. rewrite count_app, count_one. destruct (String.eqb_spec (typ v) T) as [<-|N].
    + right. split; [lia|]. exists st, c, sz. rewrite dget_dset_same. replace (count (typ v) l + 1 - 1) with (count (typ v) l) by lia.
      rewrite K. repeat split; auto.
    + rewrite Nat.add_0_r, dget_dset_other by auto. apply Ta.
Qed.

(** Values held in registers of domain [i]. *)
Definition holds_at (i : nat) (cells : nat -> C) (l : list V) (ks : list nat) : Prop :=
  length ks = length l /\ forall a v k, nth_error l a = Some v -> nth_error ks a = Some k ->
    exists st c sz, dget (l_regs lay) (typ v) = Some (st, st + c * sz) /\ dget (l_sizes lay) (typ v) = Some sz /\
      dget (l_types lay) k = Some (typ v) /\ st <= k /\ k + sz <= st + count (typ v) l * sz /\ count (typ v) l <= c /\
      dec (typ v) (slice cells (i * l_rsize lay + k) sz) = v.

Lemma holds_fetch : forall i cells l ks m, holds_at i cells l ks ->
  fetch cells i (map Some ks ++ repeat None m) = Ok l.
Proof.
  intros i cells l ks m (Ln & H).
  assert (H' : forall a v k, nth_error l a = Some v -> nth_error ks a = Some k -> exists sz,
    dget (l_sizes lay) (typ v) = Some sz /\ dget (l_types lay) k = Some (typ v) /\
    dec (typ v) (slice cells (i * l_rsize lay + k) sz) = v).
  { intros a v k E1 E2. destruct (H a v k E1 E2) as (st & c & sz & _ & A & B & _ & _ & _ & E). eauto. }
  clear H. revert ks Ln H'. induction l as [|v l IH]; intros [|k ks] Ln H; try discriminate.
  - destruct m; reflexivity.
  - cbn. destruct (H 0 v k eq_refl eq_refl) as (sz & A & B & E). unfold dgetE. rewrite B. cbn. rewrite A. cbn.
    rewrite IH; [cbn; now rewrite E|auto|]. intros a w k' E1 E2. now apply (H (S a)).
Qed.

Lemma store_ok : forall inc i vs l counters cells ks m,
  tally l counters -> holds_at i cells l ks -> fits reg (l ++ vs) -> length ks + m = slots reg ->
  (forall T c sz, In (T, c, sz) reg -> 1 < count T (l ++ vs) -> inc sz = sz) ->
  exists cells' ks' m', store inc i (length l) vs counters cells (map Some ks ++ repeat None m)
    = (cells', map Some ks' ++ repeat None m', Ok tt) /\ holds_at i cells' (l ++ vs) ks' /\ length ks' + m' = slots reg /\
  (forall p, p < i * l_rsize lay \/ i * l_rsize lay + l_rsize lay <= p -> cells' p = cells p).
Proof.
  intros inc i vs. induction vs as [|v vs IH]; intros l counters cells ks m Ta Ho Fi Sl In_.
  - cbn. exists cells, ks, m. rewrite app_nil_r. auto.
  - cbn [ShmModel.store]. destruct (Fi v) as (c & sz & I & Le); [apply in_app_iff; right; now left|].
    assert (Lc : count (typ v) l + 1 <= c).
    { rewrite count_app in Le. change (v :: vs) with ([v] ++ vs) in Le. rewrite count_app, count_one, String.eqb_refl in Le. lia. }
    destruct (g_in _ _ G _ _ _ I ltac:(lia)) as (st & Er & Es & Ls & Ty). rewrite Er, Es.
    assert (Ic : 0 < count (typ v) l -> inc sz = sz).
    { intros P. apply (In_ _ _ _ I). rewrite count_app. change (v :: vs) with ([v] ++ vs).
      rewrite count_app, count_one, String.eqb_refl. lia. }
    destruct (tally_next l counters v st _ sz inc Ta Er Es Ic) as (Z & K & c' & I' & Ec & _ & Ck & Tn).
    destruct (reg_once _ _ _ _ _ I I') as (<- & _). clear I' Ec.
    set (k := match dget counters (typ v) with Some _ => _ | None => _ end) in *. cbn zeta.
    rewrite (proj2 Ck Lc).
    destruct Ho as (Lk & Ho).
    assert (Lm : length l < slots reg).
    { pose proof (fits_length _ Fi) as Q. rewrite app_length in Q. cbn in Q. lia. }
    rewrite (proj2 (Nat.leb_gt _ _)) by (rewrite app_length, map_length, repeat_length; lia).
    destruct m as [|m]; [lia|].
    set (si := i * l_rsize lay + k). set (cells1 := write cells si (enc v (slice cells si sz))).
    assert (Le1 : length (enc v (slice cells si sz)) = sz) by (rewrite (proj1 Hl); apply slice_length).
    replace (firstn (length l) (map Some ks ++ repeat None (S m)) ++ Some k :: skipn (S (length l)) (map Some ks ++ repeat None (S m)))
      with (map Some (ks ++ [k]) ++ repeat None m).
    2:{ rewrite <- Lk. rewrite <- (map_length Some ks), firstn_app, Nat.sub_diag, firstn_all. cbn [firstn]. rewrite app_nil_r.
        rewrite map_app. rewrite skipn_app. rewrite skipn_all2 by lia. replace (S (length (map Some ks)) - length (map Some ks)) with 1 by lia.
        cbn. now rewrite <- app_assoc. }
    destruct (IH (l ++ [v]) (dset counters (typ v) k) cells1 (ks ++ [k]) m) as (cells' & ks' & m' & E & Ho' & Sl' & Fr).
    + auto.
    + split; [rewrite !app_length; cbn; lia|]. intros a w kw Ea Ek.
      destruct (Nat.lt_ge_cases a (length l)) as [La|La].
      * rewrite nth_error_app1 in Ea, Ek by lia. destruct (Ho a w kw Ea Ek) as (st' & c' & sz' & A & B & T' & L1 & L2 & L3 & Ed).
        exists st', c', sz'.
        assert (Cw : count (typ w) l <= count (typ w) (l ++ [v]) <= c').
        { rewrite count_app, count_one. destruct (String.eqb_spec (typ v) (typ w)) as [Q|Q]; [|lia].
          rewrite <- Q in *. assert (sz' = sz) by congruence. subst. assert (st' = st) by congruence. subst.
          assert (st + c' * sz = st + c * sz) by congruence. nia. }
        repeat split; auto; try lia; try nia.
        rewrite <- Ed at 2. f_equal. apply slice_ext. intros p Lp. unfold cells1. rewrite write_out; auto. rewrite Le1.
        unfold si. destruct (String.eqb_spec (typ v) (typ w)) as [Q|Q].
        -- rewrite <- Q in *. assert (sz' = sz) by congruence. subst. assert (st' = st) by congruence. subst. nia.
        -- destruct (g_apart _ _ G _ _ _ _ _ _ Q Er A) as [H|H]; nia.
      * assert (a = length l).
        { assert (a < length (l ++ [v])) by (apply nth_error_Some; congruence). rewrite app_length in H. cbn in H. lia. }
        subst a. rewrite nth_error_app2, Nat.sub_diag in Ea by lia. rewrite nth_error_app2 in Ek by lia.
        replace (length l - length ks) with 0 in Ek by lia. injection Ea as <-. injection Ek as <-.
        exists st, c, sz. rewrite count_app, count_one, String.eqb_refl. repeat split; auto; try nia.
        -- rewrite K. apply Ty. lia.
        -- unfold cells1. fold si. pose proof (slice_write _ cells si (enc v (slice cells si sz))) as Wr. rewrite Le1 in Wr. rewrite Wr. apply (proj2 Hl) with (c := c) (sz := sz); auto. apply slice_length.
    + now rewrite <- app_assoc.
    + rewrite app_length. cbn. lia.
    + now rewrite <- app_assoc.
    + exists cells', ks', m'. split; [|split; [now rewrite <- app_assoc in Ho'|split; [auto|]]].
      * replace (S (length l)) with (length (l ++ [v])) by (rewrite app_length; cbn; lia). exact E.
      * intros p Lp. rewrite Fr by auto. unfold cells1. rewrite write_out; auto. rewrite Le1. unfold si. nia.
Qed.

(** The caller's way of storing never leaves the registers of its domain, and succeeds only when the
    values fit. *)
Lemma store_id : forall i vs l j counters cells params cells' params' r, tally l counters ->
  store (fun sz => sz) i j vs counters cells params = (cells', params', r) ->
  (forall p, p < i * l_rsize lay \/ i * l_rsize lay + l_rsize lay <= p -> cells' p = cells p) /\
  (r = Ok tt -> forall v, In v vs -> exists c sz, In (typ v, c, sz) reg /\ count (typ v) (l ++ vs) <= c).
Proof.
  intros i vs. induction vs as [|v vs IH]; intros l j counters cells params cells' params' r Ta E; cbn in E.
  - injection E as <- <- <-. split; auto. intros _ v [].
  - destruct (dget (l_regs lay) (typ v)) as [[st en]|] eqn:Er; [|injection E as <- <- <-; split; [auto|discriminate]].
    destruct (dget (l_sizes lay) (typ v)) as [sz|] eqn:Es; [|injection E as <- <- <-; split; [auto|discriminate]].
    destruct (tally_next l counters v st en sz (fun sz => sz) Ta Er Es (fun _ => eq_refl)) as (Z & K & c & I & -> & Le & Ck & Tn).
    cbn beta in *. set (k := match dget counters (typ v) with Some _ => _ | None => _ end) in *.
    destruct (dmem counters (typ v) && (st + c * sz <=? k)) eqn:Q; [injection E as <- <- <-; split; [auto|discriminate]|].
    pose proof (proj1 Ck eq_refl) as Q1. destruct (length params <=? j); [injection E as <- <- <-; split; [auto|discriminate]|].
    apply (IH (l ++ [v])) in E as (Fr & F); [|auto]. rewrite <- app_assoc in F. cbn in F. split.
    + intros p Lp. rewrite Fr by auto. apply write_out. rewrite (proj1 Hl), slice_length. nia.
    + intros Hr w [<-|I']; [|auto]. exists c, sz. split; auto.
      destruct (in_dec string_dec (typ v) (map typ vs)) as [J|J].
      * apply in_map_iff in J as (w & Ew & J). destruct (F Hr w J) as (c' & sz' & I2 & L2). rewrite Ew in *.
        destruct (reg_once _ _ _ _ _ I I2) as (<- & <-). auto.
      * rewrite count_app. change (v :: vs) with ([v] ++ vs). rewrite count_app, count_one, String.eqb_refl.
        replace (count (typ v) vs) with 0; [lia|]. unfold ShmSpec.count. clear - J. induction vs as [|w vs IH]; auto. cbn in *.
        destruct (String.eqb_spec (typ w) (typ v)); [exfalso; auto|auto].
Qed.

Lemma store_length : forall inc i vs j counters cells params cells' params' r,
  store inc i j vs counters cells params = (cells', params', r) -> length params' = length params.
Proof.
  intros inc i vs. induction vs as [|v vs IH]; intros j counters cells params cells' params' r E; cbn [ShmModel.store] in E.
  - now injection E as <- <- <-.
  - destruct (dget (l_regs lay) (typ v)) as [[st en]|]; [|now injection E as <- <- <-].
    destruct (dget (l_sizes lay) (typ v)) as [sz|]; [|now injection E as <- <- <-].
    destruct (_ && _); [now injection E as <- <- <-|].
    destruct (Nat.leb_spec (length params) j) as [L|L]; [now injection E as <- <- <-|].
    rewrite (IH _ _ _ _ _ _ _ E). rewrite app_length, firstn_length, Nat.min_l by lia. cbn [length]. rewrite skipn_length. lia.
Qed.

(** * Operations *)
Notation shm := (shm C).
Notation launch := (launch typ enc lay).
Notation serve := (serve typ is_none enc dec run lay).
Notation work := (work typ is_none enc dec run lay).
Notation get_result := (get_result dec lay).
Notation sent := (sent is_none).

Definition sized (s : shm) : Prop := forall i, length (m_params s i) = slots reg.

(** The same for domain [i]. *)
Definition same_at (i : nat) (s s' : shm) : Prop :=
  m_params s i = m_params s' i /\ m_lam s i = m_lam s' i /\ m_name s i = m_name s' i /\
  forall p, i * l_rsize lay <= p < i * l_rsize lay + l_rsize lay -> m_cells s p = m_cells s' p.

Lemma same_trans : forall i s1 s2 s3, same_at i s1 s2 -> same_at i s2 s3 -> same_at i s1 s3.
Proof.
  intros i s1 s2 s3 (A & B & E & F) (A' & B' & E' & F'). repeat split; try congruence.
  intros p L. rewrite F, F'; auto.
Qed.

Lemma upd_same : forall X (f : nat -> X) i x, upd f i x i = x.
Proof. intros. unfold upd. now rewrite Nat.eqb_refl. Qed.
Lemma upd_other : forall X (f : nat -> X) i x j, j <> i -> upd f i x j = f j.
Proof. intros. unfold upd. now rewrite (proj2 (Nat.eqb_neq _ _)). Qed.

Lemma sized_upd : forall (cells : nat -> C) ps i x lam nm, (forall k, length (ps k) = slots reg) -> length x = slots reg ->
  sized (Shm cells (upd ps i x) lam nm).
Proof.
  intros cells ps i x lam nm H Hx k. cbn. destruct (Nat.eq_dec k i) as [->|N]; [now rewrite upd_same|now rewrite upd_other].
Qed.

Lemma blank_length : forall l : list (option nat), length (blank l) = length l.
Proof. intros. apply repeat_length. Qed.

Lemma fetch_same : forall i cells cells' ps,
  (forall p, i * l_rsize lay <= p < i * l_rsize lay + l_rsize lay -> cells p = cells' p) ->
  fetch cells i ps = fetch cells' i ps.
Proof.
  intros i cells cells' ps H. induction ps as [|[p|] ps IH]; cbn; auto.
  unfold dgetE. destruct (dget (l_types lay) p) as [T|] eqn:Et; cbn; auto.
  destruct (g_types _ _ G _ _ Et) as (c & sz & _ & _ & Es & L). rewrite Es. cbn. rewrite IH.
  replace (slice cells (i * l_rsize lay + p) sz) with (slice cells' (i * l_rsize lay + p) sz); auto.
  apply slice_ext. intros q Lq. symmetry. apply H. lia.
Qed.

Lemma far : forall i j p, j <> i -> i * l_rsize lay <= p < i * l_rsize lay + l_rsize lay ->
  p < j * l_rsize lay \/ j * l_rsize lay + l_rsize lay <= p.
Proof. intros. assert (j < i \/ i < j) as [L|L] by lia; nia. Qed.

Lemma launch_sized : forall s j f args, sized s -> sized (fst (launch s j f args)).
Proof.
  intros s j f args H. unfold ShmModel.launch.
  destruct f as [name|k]; [destruct (pad name); cbn [fst snd]; [|exact H]|cbn [fst snd]].
  all: destruct (ShmModel.store _ _ _ _ _ _ _ _ _ _) as [[cells params] r] eqn:E; cbn [fst];
    apply sized_upd; [exact H|]; rewrite (store_length _ _ _ _ _ _ _ _ _ _ E), blank_length; apply H.
Qed.

Lemma launch_frame : forall s i j f args, j <> i -> same_at i s (fst (launch s j f args)).
Proof.
  intros s i j f args N. unfold ShmModel.launch. assert (N' : i <> j) by auto.
  destruct f as [name|k]; [destruct (pad name); cbn [fst snd]|cbn [fst snd]].
  2:{ repeat split; cbn; rewrite ?upd_other by auto; auto. }
  all: destruct (ShmModel.store _ _ _ _ _ _ _ _ _ _) as [[cells params] r] eqn:E;
    apply (store_id _ _ [] _ _ _ _ _ _ _ tally_nil) in E as (Fr & _); repeat split; cbn; rewrite ?upd_other by auto; auto;
    intros p L; symmetry; apply Fr; eapply far; eauto.
Qed.

(** Sending results back. *)
Definition orderly_at (d : D) (f : func) (args : list V) : Prop :=
  fits reg (sent (snd (run d f args))) /\ slim reg (sent (snd (run d f args))).

Lemma send_back : forall s i l, sized s -> fits reg l -> slim reg l -> exists cells ks m,
  store (fun _ => 1) i 0 l [] (m_cells s) (blank (m_params s i)) = (cells, map Some ks ++ repeat None m, Ok tt) /\
  holds_at i cells l ks /\ length ks + m = slots reg /\
  (forall p, p < i * l_rsize lay \/ i * l_rsize lay + l_rsize lay <= p -> cells p = m_cells s p).
Proof.
  intros s i l Sz F Sl. unfold blank. rewrite Sz.
  apply (store_ok (fun _ => 1) i l [] [] (m_cells s) [] (slots reg)); auto.
  - apply tally_nil.
  - split; auto. intros [|a] v k E; discriminate.
  - intros T c sz I P. symmetry. eapply Sl; eauto.
Qed.

Lemma work_ok : forall s i d f args, sized s -> fetch (m_cells s) i (m_params s i) = Ok args -> orderly_at d f args ->
  sized (fst (work s i d f)) /\ snd (work s i d f) = fst (run d f args) /\
  (forall j, j <> i -> same_at j s (fst (work s i d f))) /\
  (snd (run d f args) <> Raise V -> get_result (fst (work s i d f)) i = Ok (reply (sent (snd (run d f args))))).
Proof.
  intros s i d f args Sz Ef (F & Sl). unfold ShmModel.work. rewrite Ef. destruct (run d f args) as [d' o] eqn:Er. cbn [fst snd] in *.
  assert (Empty : sized (Shm (m_cells s) (upd (m_params s) i (blank (m_params s i))) (m_lam s) (m_name s)) /\
    (forall j, j <> i -> same_at j s (Shm (m_cells s) (upd (m_params s) i (blank (m_params s i))) (m_lam s) (m_name s))) /\
    get_result (Shm (m_cells s) (upd (m_params s) i (blank (m_params s i))) (m_lam s) (m_name s)) i = Ok (Nothing V)).
  { split; [apply sized_upd; [exact Sz|rewrite blank_length; apply Sz]|]. split.
    - intros j N. repeat split; cbn; rewrite ?upd_other by auto; auto.
    - unfold ShmModel.get_result. cbn. rewrite upd_same. unfold blank. now destruct (m_params s i). }
  assert (Full : forall l, l <> [] -> fits reg l -> slim reg l -> match store (fun _ => 1) i 0 l [] (m_cells s) (blank (m_params s i)) with
      (cells, ps, _) => let s' := Shm cells (upd (m_params s) i ps) (m_lam s) (m_name s) in
        sized s' /\ (forall j, j <> i -> same_at j s s') /\ get_result s' i = Ok (reply l) end).
  { intros l Nl Fl Sll. destruct (send_back s i l Sz Fl Sll) as (cells & ks & m & E & Ho & Lk & Fr). rewrite E. cbn zeta. repeat split.
    - apply sized_upd; [exact Sz|]. rewrite app_length, map_length, repeat_length. auto.
    - cbn. now rewrite upd_other.
    - intros p L. cbn. symmetry. apply Fr. apply (far j i); auto.
    - unfold ShmModel.get_result. cbn. rewrite upd_same. rewrite (holds_fetch _ _ _ _ m Ho). cbn. destruct l as [|a [|b l]]; auto; congruence. }
  destruct Empty as (Es & Ej & Eg).
  destruct o as [v|l|]; cbn [ShmSpec.sent] in *.
  - destruct (is_none v); cbn [fst snd]; [auto|].
    specialize (Full [v] ltac:(discriminate) F Sl). destruct (store _ _ _ _ _ _ _) as [[cells ps] r]. cbn zeta in *. cbn [fst snd]. tauto.
  - destruct l as [|v l]; cbn [fst snd] in *; [auto|]. destruct (is_none v); cbn [fst snd]; [auto|].
    specialize (Full (v :: l) ltac:(discriminate) F Sl). destruct (store _ _ _ _ _ _ _) as [[cells ps] r]. cbn zeta in *. cbn [fst snd]. tauto.
  - cbn [fst snd]. repeat split; auto. congruence.
Qed.

Lemma work_frame : forall s i d f, sized s -> (forall args, orderly_at d f args) ->
  sized (fst (work s i d f)) /\ forall j, j <> i -> same_at j s (fst (work s i d f)).
Proof.
  intros s i d f Sz O. destruct (fetch (m_cells s) i (m_params s i)) as [args|] eqn:E.
  - destruct (work_ok s i d f args Sz E (O args)) as (A & _ & B & _). auto.
  - unfold ShmModel.work. rewrite E. cbn. split; auto. intros j _. repeat split.
Qed.

Lemma serve_frame : forall s i d s' d', sized s -> (forall d f args, orderly_at d f args) -> serve s i d = Some (s', d') ->
  sized s' /\ forall j, j <> i -> same_at j s s'.
Proof.
  intros s i d s' d' Sz O E. unfold ShmModel.serve in E.
  assert (exists f, work s i d f = (s', d')) as (f & E').
  { destruct (m_lam s i); [injection E as E; eauto|]. destruct (m_name s i); [discriminate|].
    destruct (Ascii.eqb _ _); [discriminate|]. injection E as E. eauto. }
  pose proof (work_frame s i d f Sz (O d f)) as W. now rewrite E' in W.
Qed.

(** The jobs that can be named. *)
Definition callable (f : func) : Prop :=
  match f with Method name => name <> [] /\ length name <= width /\ ~ In zero name | Lambda _ => True end.

Lemma launch_ok : forall s i f args, sized s -> callable f -> fits reg args -> exists s1,
  launch s i f args = (s1, true) /\ sized s1 /\ fetch (m_cells s1) i (m_params s1 i) = Ok args /\
  forall s', same_at i s1 s' -> forall d, serve s' i d = Some (work s' i d f).
Proof.
  intros s i f args Sz Cf F.
  assert (St : forall cells, exists cells' ks m, store (fun sz => sz) i 0 args [] cells (blank (m_params s i))
    = (cells', map Some ks ++ repeat None m, Ok tt) /\ holds_at i cells' args ks /\ length ks + m = slots reg).
  { intros cells. unfold blank. rewrite Sz.
    destruct (store_ok (fun sz => sz) i args [] [] cells [] (slots reg)) as (cells' & ks & m & E & Ho & Lk & _); auto.
    - apply tally_nil.
    - split; auto. intros [|a] v k E; discriminate.
    - eauto 6. }
  pose proof (launch_sized s i f args Sz) as S1. unfold ShmModel.launch in *. destruct f as [name|k].
  - destruct Cf as (Nn & Ln & Nz). unfold pad in *. rewrite (proj2 (Nat.ltb_ge _ _)) in * by auto. cbn [fst snd m_cells m_params m_lam m_name] in *.
    destruct (St (m_cells s)) as (cells & ks & m & E & Ho & Lk). rewrite E in *. eexists. split; [reflexivity|]. cbn [fst snd m_cells m_params m_lam m_name] in *.
    split; [exact S1|]. rewrite upd_same. split; [now apply holds_fetch|].
    intros s' (Ep & El & En & _) d. cbn [m_lam m_name] in El, En. rewrite upd_same in El, En. unfold ShmModel.serve. rewrite <- El, <- En.
    pose proof (get_string_pad name (width - length name) Nz) as Gs. destruct name as [|c name]; [congruence|]. cbn [app] in Gs |- *. rewrite Gs.
    destruct (Ascii.eqb_spec c zero) as [->|_]; [exfalso; apply Nz; now left|]. reflexivity.
  - cbn [fst snd m_cells m_params m_lam m_name] in *. destruct (St (m_cells s)) as (cells & ks & m & E & Ho & Lk). rewrite E in *.
    eexists. split; [reflexivity|]. cbn [fst snd m_cells m_params m_lam m_name] in *. split; [exact S1|]. rewrite upd_same.
    split; [now apply holds_fetch|]. intros s' (Ep & El & En & _) d. cbn in El. rewrite upd_same in El. unfold ShmModel.serve. now rewrite <- El.
Qed.

Lemma launch_refused : forall s i f args, ~ fits reg args -> snd (launch s i f args) = false.
Proof.
  intros s i f args N. unfold ShmModel.launch.
  destruct f as [name|k]; [destruct (pad name); cbn [fst snd]; [|reflexivity]|cbn [fst snd]].
  all: destruct (ShmModel.store _ _ _ _ _ _ _ _ _ _) as [[cells params] r] eqn:E;
    apply (store_id _ _ [] _ _ _ _ _ _ _ tally_nil) in E as (_ & Fi); cbn [snd]; destruct r as [[]|]; [|reflexivity];
    exfalso; apply N; intros v I; apply (Fi eq_refl v I).
Qed.
End Any.

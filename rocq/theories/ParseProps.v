(** C145: reading knapsack and coloring instances. *)
From Coq Require Import String Ascii.
From Coq Require Import List Bool Arith ZArith Lia.
From Coq Require Import DecimalString Decimal DecimalZ DecimalPos.
From Verif Require Import Py PyList KnapModel ParseModel.
Import ListNotations.
Local Open Scope nat_scope.

(** Every character satisfies *)
Fixpoint every (f : ascii -> bool) (s : string) : bool :=
  match s with EmptyString => true | String a r => f a && every f r end.
(** The usual decimal writing of an integer *)
Definition written (z : Z) : string := NilZero.string_of_int (Z.to_int z).
(** The characters that separate words within a line: tabulation, vertical tabulation, form feed, carriage return, the four separators of
    ASCII and the blank *)
Definition gap_char (c : ascii) : bool := existsb (Nat.eqb (nat_of_ascii c)) [9; 11; 12; 13; 28; 29; 30; 31; 32].
Definition blank (s : string) : Prop := every gap_char s = true.
(** A line with two integers, spaces around them and perhaps more words behind them *)
Definition shows (line : string) (x y : Z) : Prop := exists s0 s1 rest,
  blank s0 /\ blank s1 /\ s1 <> EmptyString /\ line = (s0 ++ written x ++ s1 ++ written y ++ rest)%string /\
  (rest = EmptyString \/ exists c r, rest = String c r /\ gap_char c = true) /\ every (fun c => negb (Ascii.eqb c nl)) rest = true.
(** The lines behind the first one, and what follows *)
Fixpoint body (ls : list string) (tail : string) : string :=
  match ls with [] => tail | l :: ls => String nl (l ++ body ls tail) end.
(** Nothing, or text behind another end of line *)
Definition ending (tail : string) : Prop := tail = EmptyString \/ exists r, tail = String nl r.

Lemma every_app : forall f a b, every f (a ++ b) = every f a && every f b.
Proof. induction a as [|c a IH]; intros b; [reflexivity|]. cbn. rewrite IH. apply andb_assoc. Qed.
Lemma every_imp : forall (f g : ascii -> bool) s, (forall c, f c = true -> g c = true) -> every f s = true -> every g s = true.
Proof.
  intros f g s H. induction s as [|c s IH]; intros E; [reflexivity|]. cbn in *. apply andb_true_iff in E. destruct E as [E1 E2]. rewrite (H _ E1), (IH E2). reflexivity.
Qed.
Lemma split_plain : forall f u, every (fun c => negb (f c)) u = true -> split_by f u = [u].
Proof.
  induction u as [|c u IH]; intros E; [reflexivity|]. cbn in *. apply andb_true_iff in E. destruct E as [E1 E2]. rewrite (IH E2). destruct (f c); [discriminate|reflexivity].
Qed.
Lemma split_at : forall f u c v, every (fun c => negb (f c)) u = true -> f c = true -> split_by f (u ++ String c v) = u :: split_by f v.
Proof.
  induction u as [|a u IH]; intros c v E F; cbn; [rewrite F; reflexivity|]. cbn in E. apply andb_true_iff in E. destruct E as [E1 E2]. rewrite (IH c v E2 F).
  destruct (f a); [discriminate|reflexivity].
Qed.

Definition sign_or_digit (c : ascii) : bool := let n := nat_of_ascii c in (n =? 45) || ((48 <=? n) && (n <=? 57)).
Lemma digits : forall d, every sign_or_digit (NilEmpty.string_of_uint d) = true.
Proof. induction d; cbn [NilEmpty.string_of_uint every]; [reflexivity|..]; rewrite IHd; reflexivity. Qed.
Lemma digits0 : forall d, every sign_or_digit (NilZero.string_of_uint d) = true.
Proof. intros d. destruct d; try reflexivity; apply digits. Qed.
Lemma written_chars : forall z, every sign_or_digit (written z) = true.
Proof. intros z. unfold written. destruct (Z.to_int z) as [d|d]; cbn [NilZero.string_of_int every]; rewrite digits0; reflexivity. Qed.
Lemma sign_or_digit_not : forall c, sign_or_digit c = true -> is_space c = false /\ Ascii.eqb c "+"%char = false /\ Ascii.eqb c nl = false.
Proof.
  intros c. unfold sign_or_digit, is_space, nl. intros H.
  assert (E : forall k, nat_of_ascii c <> nat_of_ascii k -> Ascii.eqb c k = false) by (intros k N; apply Ascii.eqb_neq; intros ->; congruence).
  split; [|split]; [|apply E; change (nat_of_ascii "+") with 43|apply E; change (nat_of_ascii (ascii_of_nat 10)) with 10];
    destruct (Nat.eqb_spec (nat_of_ascii c) 45); destruct (Nat.leb_spec 48 (nat_of_ascii c)); destruct (Nat.leb_spec (nat_of_ascii c) 57); try discriminate; try lia;
    repeat match goal with |- context [?a <=? ?b] => destruct (Nat.leb_spec a b) end; try lia; reflexivity.
Qed.
Lemma to_int_written : forall z, to_int (written z) = Ok z.
Proof.
  intros z. assert (E : NilZero.int_of_string (written z) = Some (Z.to_int z)).
  { unfold written. apply NilZero.isi; destruct z; cbn [Z.to_int]; intros H; try discriminate; injection H as H; revert H; apply Unsigned.to_uint_nonnil. }
  unfold to_int. pose proof (written_chars z) as C. destruct (written z) as [|a r] eqn:W; [cbn in E; discriminate|].
  cbn [every] in C. apply andb_true_iff in C. destruct C as [C _]. destruct (sign_or_digit_not a C) as (_ & -> & _). rewrite E. rewrite DecimalZ.of_to. reflexivity.
Qed.
Lemma written_word : forall z, every (fun c => negb (is_space c)) (written z) = true /\ every (fun c => negb (Ascii.eqb c nl)) (written z) = true /\ written z <> EmptyString.
Proof.
  intros z. pose proof (written_chars z) as C. split; [|split].
  - apply (every_imp _ _ _ (fun c H => f_equal negb (proj1 (sign_or_digit_not c H)))). exact C.
  - apply (every_imp _ _ _ (fun c H => f_equal negb (proj2 (proj2 (sign_or_digit_not c H))))). exact C.
  - intros E. pose proof (to_int_written z) as T. rewrite E in T. discriminate.
Qed.

Lemma gap_space : forall c, gap_char c = true -> is_space c = true /\ negb (Ascii.eqb c nl) = true.
Proof.
  intros c H. unfold gap_char in H. apply existsb_exists in H. destruct H as (x & I & E). apply Nat.eqb_eq in E. split.
  - unfold is_space. rewrite E. cbn in I. repeat (destruct I as [<-|I]; [reflexivity|]). contradiction.
  - destruct (Ascii.eqb_spec c nl) as [->|]; [|reflexivity]. change (nat_of_ascii nl) with 10 in E. subst x. cbn in I. intuition discriminate.
Qed.

Lemma words_blank : forall s0 s, blank s0 -> words (s0 ++ s) = words s.
Proof.
  induction s0 as [|c s0 IH]; intros s B; [reflexivity|]. unfold blank in B. cbn [every] in B. apply andb_true_iff in B. destruct B as [B1 B2]. apply gap_space in B1.
  rewrite <- (IH s B2). unfold words. cbn [append split_by]. rewrite (proj1 B1). reflexivity.
Qed.
Lemma words_word : forall w rest, every (fun c => negb (is_space c)) w = true -> w <> EmptyString ->
  (rest = EmptyString \/ exists c r, rest = String c r /\ is_space c = true) -> exists ws, words (w ++ rest) = w :: ws /\ ws = words rest.
Proof.
  intros w rest E N [->|(c & r & -> & S)].
  - exists []. split; [|reflexivity]. assert (A : (w ++ "")%string = w) by (clear; induction w as [|c w IH]; [reflexivity|cbn; rewrite IH; reflexivity]).
    rewrite A. unfold words. rewrite split_plain by exact E. cbn [filter]. rewrite (proj2 (String.eqb_neq _ _) N). reflexivity.
  - eexists. split; [|reflexivity]. unfold words. rewrite split_at by assumption. cbn [filter]. rewrite (proj2 (String.eqb_neq _ _) N). cbn [negb]. f_equal.
    cbn [split_by]. rewrite S. reflexivity.
Qed.

Lemma row_shows : forall line x y, shows line x y -> row line = Ok (x, y).
Proof.
  intros line x y (s0 & s1 & rest & B0 & B1 & N1 & -> & R & _). unfold row. rewrite words_blank by exact B0.
  destruct (written_word x) as (X1 & _ & X3). destruct (written_word y) as (Y1 & _ & Y3).
  destruct (words_word (written x) (s1 ++ written y ++ rest)%string X1 X3) as (ws & E & Ew).
  { right. destruct s1 as [|c s1]; [congruence|]. exists c. eexists. split; [reflexivity|]. unfold blank in B1. cbn [every] in B1. apply andb_true_iff in B1. destruct B1 as [B1 _].
    apply gap_space in B1. apply B1. }
  rewrite E. rewrite words_blank in Ew by exact B1. destruct (words_word (written y) rest Y1 Y3) as (ws' & E' & _).
  { destruct R as [->|(c & r & -> & G)]; [auto|]. right. exists c, r. split; [reflexivity|]. apply gap_space. exact G. }
  rewrite E' in Ew. subst ws.
  cbn [lget nth_error bind]. unfold lget. cbn [nth_error bind]. rewrite to_int_written. cbn [bind]. rewrite to_int_written. reflexivity.
Qed.
Lemma shows_line : forall line x y, shows line x y -> every (fun c => negb (Ascii.eqb c nl)) line = true.
Proof.
  intros line x y (s0 & s1 & rest & B0 & B1 & _ & -> & _ & R). rewrite !every_app.
  assert (Bl : forall s, blank s -> every (fun c => negb (Ascii.eqb c nl)) s = true) by (intros s; apply every_imp; intros c H; apply gap_space; exact H).
  rewrite (Bl _ B0), (Bl _ B1), R. destruct (written_word x) as (_ & -> & _). destruct (written_word y) as (_ & -> & _). reflexivity.
Qed.
Lemma lines_body : forall ls h tail, every (fun c => negb (Ascii.eqb c nl)) h = true -> Forall (fun l => every (fun c => negb (Ascii.eqb c nl)) l = true) ls -> ending tail ->
  exists more, lines (h ++ body ls tail) = h :: ls ++ more /\ (tail = EmptyString -> more = []) /\ forall r, tail = String nl r -> more = lines r.
Proof.
  induction ls as [|l ls IH]; intros h tail Hh Hl T; cbn [body].
  - destruct T as [->|(r & ->)].
    + exists []. assert (A : (h ++ "")%string = h) by (clear; induction h as [|c w IH]; [reflexivity|cbn; rewrite IH; reflexivity]).
      rewrite A. split; [apply (split_plain (fun c => Ascii.eqb c nl)); exact Hh|]. split; [reflexivity|discriminate].
    + exists (lines r). split; [apply (split_at (fun c => Ascii.eqb c nl)); [exact Hh|apply Ascii.eqb_refl]|]. split; [discriminate|]. intros r' E. injection E as <-. reflexivity.
  - inversion Hl as [|? ? H1 H2]; subst. destruct (IH l tail H1 H2 T) as (more & E & M). exists more. split; [|exact M].
    unfold lines in *. rewrite (split_at (fun c => Ascii.eqb c nl)); [|exact Hh|apply Ascii.eqb_refl]. rewrite E. reflexivity.
Qed.

(** What the lines of a file with a header and rows are read as *)
Lemma rows_ok : forall h (ls more : list string) rs, Forall2 (fun l r => shows l (fst r) (snd r)) ls rs ->
  mapM (fun i => let* l := lget (h :: ls ++ more) i in row l) (seq 1 (length rs)) = Ok rs.
Proof.
  intros h ls more rs F. rewrite <- seq_shift. 
  assert (G : forall pre, mapM (fun i => let* l := lget (pre ++ ls ++ more) i in row l) (seq (length pre) (length rs)) = Ok rs).
  { revert more. induction F as [|l [x y] ls rs H F IH]; intros more pre; [reflexivity|]. cbn [length seq mapM].
    assert (El : lget (pre ++ (l :: ls) ++ more) (length pre) = Ok l) by (apply lget_ok; rewrite nth_error_app2 by lia; rewrite Nat.sub_diag; reflexivity).
    rewrite El. cbn [bind]. cbn [fst snd] in H. rewrite (row_shows _ _ _ H). cbn [bind].
    specialize (IH more (pre ++ [l])). rewrite app_length in IH. cbn [length] in IH. rewrite Nat.add_1_r in IH. rewrite <- app_assoc in IH. change ([l] ++ ls ++ more) with ((l :: ls) ++ more) in IH. rewrite IH. reflexivity. }
  specialize (G [h]). cbn [length app] in G. rewrite seq_shift. exact G.
Qed.

(** A text in the documented format gives the announced items in order, numbered from 0, with their values and weights, and the capacity;
    how many spaces there are, further words on a line and further lines do not matter. *)
Theorem C145_knapsack : forall force h cap ls rs tail, shows h (Z.of_nat (length rs)) cap -> Forall2 (fun l r => shows l (fst r) (snd r)) ls rs -> ending tail ->
  exists m, parse_knapsack (h ++ body ls tail) force = Ok m /\ m_cap m = cap /\ m_force m = force /\ length (m_items m) = length rs /\
    forall i v w, nth_error rs i = Some (v, w) -> nth_error (m_items m) i = Some (mkItem i v w).
Proof.
  intros force h cap ls rs tail Hh F T. unfold parse_knapsack, table.
  destruct (lines_body ls h tail (shows_line _ _ _ Hh)) as (more & E & _); [|exact T|].
  { clear -F. induction F as [|l r ls rs H F IH]; constructor; [exact (shows_line _ _ _ H)|exact IH]. }
  rewrite E. unfold lget at 1. cbn [nth_error bind]. rewrite (row_shows _ _ _ Hh). cbn [bind fst]. rewrite Nat2Z.id, (rows_ok h ls more rs F). cbn [bind].
  eexists. split; [reflexivity|]. cbn [m_cap m_force m_items]. split; [reflexivity|]. split; [reflexivity|]. split; [rewrite map_length, combine_length, seq_length; lia|].
  intros i v w Ei. assert (G : forall k rs i v w, nth_error rs i = Some (v, w) ->
    nth_error (map (fun iv : nat * (Z * Z) => mkItem (fst iv) (fst (snd iv)) (snd (snd iv))) (combine (seq k (length rs)) rs)) i = Some (mkItem (k + i) v w)).
  { clear. intros k rs. revert k. induction rs as [|[x y] rs IH]; intros k i v w Ei; [destruct i; discriminate|]. destruct i as [|i].
    - injection Ei as <- <-. cbn. rewrite Nat.add_0_r. reflexivity.
    - cbn [nth_error] in Ei. cbn [length seq combine map nth_error]. rewrite (IH (S k) i v w Ei). f_equal. f_equal. lia. }
  apply (G 0 rs i v w Ei).
Qed.

(** A text in the documented format gives the nodes 0 to n - 1 and the announced edges in order. *)
Theorem C145_coloring : forall h n ls es tail, shows h (Z.of_nat n) (Z.of_nat (length es)) -> Forall2 (fun l e => shows l (fst e) (snd e)) ls es -> ending tail ->
  parse_coloring (h ++ body ls tail) = Ok (seq 0 n, es).
Proof.
  intros h n ls es tail Hh F T. unfold parse_coloring.
  destruct (lines_body ls h tail (shows_line _ _ _ Hh)) as (more & E & _); [|exact T|].
  { clear -F. induction F as [|l r ls rs H F IH]; constructor; [exact (shows_line _ _ _ H)|exact IH]. }
  rewrite E. unfold lget at 1. cbn [nth_error bind]. rewrite (row_shows _ _ _ Hh). cbn [bind fst snd]. rewrite Nat2Z.id, (rows_ok h ls more es F), Nat2Z.id. reflexivity.
Qed.

(** A file that announces more items than it has is refused. *)
Theorem C145_truncated : forall force h n cap ls rs tail, shows h (Z.of_nat n) cap -> Forall2 (fun l r => shows l (fst r) (snd r)) ls rs -> length rs < n ->
  tail = EmptyString \/ tail = String nl EmptyString -> parse_knapsack (h ++ body ls tail) force = Err IndexError.
Proof.
  intros force h n cap ls rs tail Hh F L T. unfold parse_knapsack, table.
  destruct (lines_body ls h tail (shows_line _ _ _ Hh)) as (more & E & M1 & M2).
  { clear -F. induction F as [|l r ls rs H F IH]; constructor; [exact (shows_line _ _ _ H)|exact IH]. }
  { destruct T as [->| ->]; [left; reflexivity|right; eauto]. }
  assert (M : more = [] \/ more = [EmptyString]) by (destruct T as [T|T]; [left; auto|right; rewrite (M2 _ T); reflexivity]).
  rewrite E. unfold lget at 1. cbn [nth_error bind]. rewrite (row_shows _ _ _ Hh). cbn [bind fst]. rewrite Nat2Z.id.
  replace n with (length rs + S (n - length rs - 1)) by lia. rewrite seq_app.
  assert (A : forall A B (f : A -> res B) l l' r, mapM f l = Ok r -> forall e, mapM f l' = Err e -> mapM f (l ++ l') = Err e).
  { clear. intros A B f. induction l as [|x l IH]; intros l' r H e H'; [exact H'|]. rewrite <- app_comm_cons. simpl in H |- *. destruct (f x) as [y|]; [|discriminate].
    simpl in H |- *. destruct (mapM f l) as [ys|] eqn:Em; [|discriminate]. rewrite (IH l' ys eq_refl e H'). reflexivity. }
  rewrite (A _ _ _ _ _ rs (rows_ok h ls more rs F) IndexError); [reflexivity|]. cbn [seq mapM].
  assert (Len : length ls = length rs) by (clear -F; induction F; cbn; congruence).
  assert (X : (let* l := lget (h :: ls ++ more) (1 + length rs) in row l) = Err IndexError).
  { unfold lget at 1. cbn [plus nth_error]. rewrite nth_error_app2 by lia. rewrite Len, Nat.sub_diag. destruct M as [->| ->]; reflexivity. }
  rewrite X. reflexivity.
Qed.

Local Open Scope string_scope.
Definition px_head : string := " 2 11".
Definition px_lines : list string := ["8   4"; "10 -5 note"].
Lemma px_shows : shows px_head 2 11 /\ Forall2 (fun l r => shows l (fst r) (snd r)) px_lines [(8, 4); (10, -5)]%Z.
Proof.
  split; [exists " ", " ", ""|constructor; [exists "", "   ", ""|constructor; [exists "", " ", " note"|constructor]]];
    (split; [reflexivity|]); (split; [reflexivity|]); (split; [discriminate|]); (split; [reflexivity|]); (split; [|reflexivity]); auto.
  right. exists " "%char, "note". split; reflexivity.
Qed.
Example C145_ex : shows px_head 2 11 /\ Forall2 (fun l r => shows l (fst r) (snd r)) px_lines [(8, 4); (10, -5)]%Z /\ ending (String nl "the end") /\
  parse_knapsack (px_head ++ body px_lines (String nl "the end")) true = Ok (mkModel [mkItem 0 8 4; mkItem 1 10 (-5)] 11 true) /\
  parse_knapsack (px_head ++ body [hd "" px_lines] "") true = Err IndexError.
Proof. split; [apply px_shows|]. split; [apply px_shows|]. split; [right; eauto|]. split; vm_compute; reflexivity. Qed.
Example C145_coloring_ex : shows "3 2" (Z.of_nat 3) (Z.of_nat (length [(0, 1); (1, 2)]%Z)) /\ parse_coloring ("3 2" ++ body ["0 1"; "1 2"] "") = Ok ([0; 1; 2], [(0, 1); (1, 2)]%Z).
Proof.
  split; [|vm_compute; reflexivity]. exists "", " ", "". split; [reflexivity|]. split; [reflexivity|]. split; [discriminate|]. split; [reflexivity|]. split; [auto|reflexivity].
Qed.

(** Nothing is checked by the reader: edges to nodes that do not exist are accepted. *)
Theorem C145_unchecked_refuted : exists s ns es e, parse_coloring s = Ok (ns, es) /\ In e es /\ ~ In (Z.to_nat (snd e)) ns.
Proof.
  exists ("2 1" ++ body ["0 7"] ""). do 2 eexists. exists (0, 7)%Z. split; [vm_compute; reflexivity|]. split; [now left|]. cbn. intuition discriminate.
Qed.

Print Assumptions C145_knapsack.
Print Assumptions C145_coloring.
Print Assumptions C145_truncated.
Print Assumptions C145_unchecked_refuted.

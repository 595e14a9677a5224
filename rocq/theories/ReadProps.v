(** C147: reading facility location and vehicle routing instances. *)
From Coq Require Import String Ascii.
From Coq Require Import List Bool Arith ZArith Lia.
From Verif Require Import Py PyList ParseModel ParseProps ReadModel.
Import ListNotations.
Local Open Scope nat_scope.

(** A word: no space and no end of line in it *)
Definition word (w : string) : Prop := w <> EmptyString /\ every (fun c => negb (gap_char c || Ascii.eqb c nl)) w = true.
(** A line with exactly these words, whatever the spaces *)
Inductive spelled : list string -> string -> Prop :=
  | spelled_end : forall s, blank s -> spelled [] s
  | spelled_word : forall s0 w ws rest, blank s0 -> word w -> (rest = EmptyString \/ exists c r, rest = String c r /\ gap_char c = true) ->
      spelled ws rest -> spelled (w :: ws) (s0 ++ w ++ rest).

Lemma space_gap : forall c, is_space c = true -> gap_char c || Ascii.eqb c nl = true.
Proof.
  intros c H. unfold is_space in H. unfold gap_char.
  assert (G : forall n, (((9 <=? n) && (n <=? 13)) || ((28 <=? n) && (n <=? 32)))%bool = true -> n = 10 \/ In n [9; 11; 12; 13; 28; 29; 30; 31; 32]).
  { intros n Hn. cbn [In]. apply orb_true_iff in Hn. destruct Hn as [Hn|Hn]; apply andb_true_iff in Hn; destruct Hn as [H1 H2]; apply Nat.leb_le in H1, H2; lia. }
  destruct (G _ H) as [E|I].
  - apply orb_true_iff. right. apply Ascii.eqb_eq. rewrite <- (ascii_nat_embedding c), E. reflexivity.
  - apply orb_true_iff. left. apply existsb_exists. exists (nat_of_ascii c). split; [exact I|apply Nat.eqb_refl].
Qed.
Lemma spelled_words : forall ws line, spelled ws line -> words line = ws /\ every (fun c => negb (Ascii.eqb c nl)) line = true.
Proof.
  assert (Bl : forall s, blank s -> every (fun c => negb (Ascii.eqb c nl)) s = true) by (intros s; apply every_imp; intros c H; apply gap_space; exact H).
  intros ws line S. induction S as [s B|s0 w ws rest B [N P] R S [IH1 IH2]].
  - split; [|apply Bl; exact B]. assert (A : s = (s ++ "")%string) by (clear; induction s as [|c s IH]; [reflexivity|cbn; rewrite <- IH; reflexivity]).
    rewrite A, words_blank by exact B. reflexivity.
  - rewrite !every_app, (Bl _ B), IH2. rewrite words_blank by exact B.
    destruct (words_word w rest) as (ws' & E & Ew).
    + revert P. apply every_imp. intros c H. destruct (is_space c) eqn:S'; [|reflexivity]. rewrite (space_gap _ S') in H. discriminate.
    + exact N.
    + destruct R as [->|(c & r & -> & G)]; [auto|]. right. exists c, r. split; [reflexivity|]. apply gap_space. exact G.
    + split; [rewrite E, Ew, IH1; reflexivity|]. rewrite andb_true_r. cbn [andb]. revert P. apply every_imp. intros c H. apply negb_true_iff in H. apply orb_false_iff in H. rewrite (proj2 H). reflexivity.
Qed.

Section Read.
Context {F : Type}.
Variable to_float : string -> res F.
Notation facility := (@facility F).
Notation customer := (@customer F).
(** A line for a facility and for a customer; further words are allowed *)
Definition facility_line (line : string) (f : F * Z * F * F) : Prop := let '(s, c, x, y) := f in exists ws wx wy more,
  spelled (ws :: written c :: wx :: wy :: more) line /\ to_float ws = Ok s /\ to_float wx = Ok x /\ to_float wy = Ok y.
Definition customer_line (line : string) (u : Z * F * F) : Prop := let '(d, x, y) := u in exists wx wy more,
  spelled (written d :: wx :: wy :: more) line /\ to_float wx = Ok x /\ to_float wy = Ok y.

Lemma rows_read : forall A B (f : nat -> res B) (g : nat -> A -> B) (P : string -> A -> Prop) ls (xs : list A) k,
  (forall i line x, nth_error ls i = Some line -> P line x -> f (k + i) = Ok (g i x)) -> Forall2 P ls xs ->
  exists ys, mapM f (seq k (length xs)) = Ok ys /\ length ys = length xs /\ forall i x, nth_error xs i = Some x -> nth_error ys i = Some (g i x).
Proof.
  intros A B f g P ls xs k H Fo. revert k g H. induction Fo as [|l x ls xs Pl Fo IH]; intros k g H.
  - exists []. split; [reflexivity|]. split; [reflexivity|]. intros i x E. destruct i; discriminate.
  - destruct (IH (S k) (fun i => g (S i))) as (ys & E & L & N).
    { intros i line y Ei Py. replace (S k + i) with (k + S i) by lia. apply (H (S i) line y Ei Py). }
    exists (g 0 x :: ys). split; [|split].
    + cbn [length seq mapM]. pose proof (H 0 l x eq_refl Pl) as E0. rewrite Nat.add_0_r in E0. rewrite E0. cbn [bind]. rewrite E. reflexivity.
    + cbn. rewrite L. reflexivity.
    + intros i y Ei. destruct i as [|i]; [injection Ei as <-; reflexivity|]. apply (N i y Ei).
Qed.

(** A text in the documented format gives the facilities and the customers in order, each numbered from 0, with the numbers written. *)
Theorem C147_facility : forall h more fl fs cl cs tail, spelled (written (Z.of_nat (length fs)) :: written (Z.of_nat (length cs)) :: more) h ->
  Forall2 facility_line fl fs -> Forall2 customer_line cl cs -> ending tail ->
  exists out_f out_c, parse_facility to_float (h ++ body (fl ++ cl) tail) = Ok (out_f, out_c) /\ length out_f = length fs /\ length out_c = length cs /\
    (forall i s c x y, nth_error fs i = Some (s, c, x, y) -> nth_error out_f i = Some (Facility i s c x y)) /\
    (forall i d x y, nth_error cs i = Some (d, x, y) -> nth_error out_c i = Some (Customer i d x y)).
Proof.
  intros h more fl fs cl cs tail Hh Ff Fc T. destruct (spelled_words _ _ Hh) as [Wh Nh].
  destruct (lines_body (fl ++ cl) h tail Nh) as (rest & E & _); [|exact T|].
  { apply Forall_app. split.
    - clear -Ff. induction Ff as [|l [[[s c] x] y] fl fs (ws & wx & wy & m & S & _) Ff IH]; constructor; [apply (spelled_words _ _ S)|exact IH].
    - clear -Fc. induction Fc as [|l [[d x] y] cl cs (wx & wy & m & S & _) Fc IH]; constructor; [apply (spelled_words _ _ S)|exact IH]. }
  assert (Lf : length fl = length fs) by (clear -Ff; induction Ff; cbn; congruence).
  unfold parse_facility. rewrite E. change (lget (h :: (fl ++ cl) ++ rest) 0) with (Ok h). cbn [bind]. rewrite Wh.
  unfold int_at at 1 2. unfold lget at 1 2. cbn [nth_error bind]. rewrite !to_int_written. cbn [bind]. rewrite !Nat2Z.id.
  destruct (rows_read _ _ (facility_row to_float (h :: (fl ++ cl) ++ rest)) (fun i (f : F * Z * F * F) => let '(s, c, x, y) := f in Facility i s c x y) facility_line fl fs 1) as (of & Ef & L1 & N1); [|exact Ff|].
  { intros i line [[[s c] x] y] Ei (ws & wx & wy & m & S & T1 & T2 & T3). unfold facility_row.
    assert (El : lget (h :: (fl ++ cl) ++ rest) (1 + i) = Ok line).
    { apply lget_ok. cbn [plus nth_error]. rewrite <- app_assoc, nth_error_app1; [exact Ei|]. apply nth_error_Some. congruence. }
    rewrite El. cbn [bind]. rewrite (proj1 (spelled_words _ _ S)). unfold float_at, int_at, lget. cbn [nth_error bind]. rewrite T1. cbn [bind]. rewrite to_int_written. cbn [bind].
    rewrite T2. cbn [bind]. rewrite T3. cbn [bind]. replace (1 + i - 1) with i by lia. reflexivity. }
  rewrite Ef. cbn [bind].
  destruct (rows_read _ _ (customer_row to_float (h :: (fl ++ cl) ++ rest) (length fs)) (fun i (u : Z * F * F) => let '(d, x, y) := u in Customer i d x y) customer_line cl cs (length fs + 1)) as (oc & Ec & L2 & N2); [|exact Fc|].
  { intros i line [[d x] y] Ei (wx & wy & m & S & T1 & T2). unfold customer_row.
    assert (El : lget (h :: (fl ++ cl) ++ rest) (length fs + 1 + i) = Ok line).
    { apply lget_ok. replace (length fs + 1 + i) with (Datatypes.S (length fl + i)) by lia. cbn [nth_error]. rewrite <- app_assoc, nth_error_app2 by lia. replace (length fl + i - length fl) with i by lia.
      rewrite nth_error_app1; [exact Ei|]. apply nth_error_Some. congruence. }
    rewrite El. cbn [bind]. rewrite (proj1 (spelled_words _ _ S)). unfold float_at, int_at, lget. cbn [nth_error bind]. rewrite to_int_written. cbn [bind]. rewrite T1. cbn [bind].
    rewrite T2. cbn [bind]. replace (length fs + 1 + i - 1 - length fs) with i by lia. reflexivity. }
  rewrite Ec. cbn [bind]. exists of, oc. split; [reflexivity|]. split; [exact L1|]. split; [exact L2|]. split.
  - intros i s c x y Ei. exact (N1 i _ Ei).
  - intros i d x y Ei. exact (N2 i _ Ei).
Qed.

(** A text in the documented format gives the customers in order, numbered from 0, and as many vehicles as asked for, or else as written, all with the
    capacity written and the start and the end asked for. *)
Theorem C147_vrp : forall h nv cap more cl cs tail start finish vehicles, spelled (written (Z.of_nat (length cs)) :: written (Z.of_nat nv) :: written cap :: more) h ->
  Forall2 customer_line cl cs -> ending tail ->
  exists out, parse_vrp to_float (h ++ body cl tail) start finish vehicles = Ok out /\ let '(caps, customers, starts, ends) := out in
    let v := match vehicles with Some v => v | None => nv end in length caps = v /\ length starts = v /\ length ends = v /\
    (forall c, In c caps -> c = cap) /\ (forall a, In a starts -> a = start) /\ (forall a, In a ends -> a = finish) /\
    length customers = length cs /\ forall i d x y, nth_error cs i = Some (d, x, y) -> nth_error customers i = Some (Customer i d x y).
Proof.
  intros h nv cap more cl cs tail start finish vehicles Hh Fc T. destruct (spelled_words _ _ Hh) as [Wh Nh].
  destruct (lines_body cl h tail Nh) as (rest & E & _); [|exact T|].
  { clear -Fc. induction Fc as [|l [[d x] y] cl cs (wx & wy & m & S & _) Fc IH]; constructor; [apply (spelled_words _ _ S)|exact IH]. }
  unfold parse_vrp. rewrite E. change (lget (h :: cl ++ rest) 0) with (Ok h). cbn [bind]. rewrite Wh.
  unfold int_at. unfold lget at 1 2 3. cbn [nth_error bind]. rewrite !to_int_written. cbn [bind]. rewrite !Nat2Z.id.
  destruct (rows_read _ _ (customer_row to_float (h :: cl ++ rest) 0) (fun i (u : Z * F * F) => let '(d, x, y) := u in Customer i d x y) customer_line cl cs 1) as (oc & Ec & L2 & N2); [|exact Fc|].
  { intros i line [[d x] y] Ei (wx & wy & m & S & T1 & T2). unfold customer_row.
    assert (El : lget (h :: cl ++ rest) (1 + i) = Ok line).
    { apply lget_ok. cbn [plus nth_error]. rewrite nth_error_app1; [exact Ei|]. apply nth_error_Some. congruence. }
    rewrite El. cbn [bind]. rewrite (proj1 (spelled_words _ _ S)). unfold float_at, int_at, lget. cbn [nth_error bind]. rewrite to_int_written. cbn [bind]. rewrite T1. cbn [bind].
    rewrite T2. cbn [bind]. replace (1 + i - 1 - 0) with i by lia. reflexivity. }
  assert (Fin : forall v, exists out : list Z * list customer * list nat * list nat, Ok (repeat cap v, oc, repeat start v, repeat finish v) = Ok out /\ let '(caps, customers, starts, ends) := out in
    length caps = v /\ length starts = v /\ length ends = v /\ (forall c, In c caps -> c = cap) /\ (forall a, In a starts -> a = start) /\ (forall a, In a ends -> a = finish) /\
    length customers = length cs /\ forall i d x y, nth_error cs i = Some (d, x, y) -> nth_error customers i = Some (Customer i d x y)).
  { intros v. exists (repeat cap v, oc, repeat start v, repeat finish v). split; [reflexivity|]. cbn beta iota zeta. rewrite !repeat_length. do 3 (split; [reflexivity|]). do 3 (split; [intros a I; exact (repeat_spec _ _ _ I)|]).
    split; [exact L2|]. intros i d x y Ei. exact (N2 i _ Ei). }
  destruct vehicles as [v|]; cbn [bind]; rewrite Ec; cbn [bind]; apply Fin.
Qed.
End Read.

Local Open Scope string_scope.
(** [float] on the words of the example: their text *)
Definition rx_float (w : string) : res string := Ok w.
Example C147_ex : spelled [written 1; written 2] "1 2" /\ facility_line rx_float "10.5 7  0 1.0" ("10.5", 7%Z, "0", "1.0") /\ customer_line rx_float " 3 2 2" (3%Z, "2", "2") /\
  parse_facility rx_float ("1 2" ++ body ["10.5 7  0 1.0"; " 3 2 2"; "4 5 6"] "") = Ok ([Facility 0 "10.5" 7 "0" "1.0"], [Customer 0 3 "2" "2"; Customer 1 4 "5" "6"]) /\
  parse_vrp rx_float ("2 3 50" ++ body ["0 2 2"; "4 5 6"] "") 0 1 None = Ok ([50; 50; 50]%Z, [Customer 0 0 "2" "2"; Customer 1 4 "5" "6"], [0; 0; 0]%nat, [1; 1; 1]%nat).
Proof.
  assert (W : forall s0 w ws rest, blank s0 -> w <> "" -> every (fun c => negb (gap_char c || Ascii.eqb c nl)) w = true -> (rest = "" \/ exists c r, rest = String c r /\ gap_char c = true) ->
    spelled ws rest -> spelled (w :: ws) (s0 ++ w ++ rest)) by (intros; apply spelled_word; auto; split; auto).
  assert (Z0 : spelled [] "") by (apply spelled_end; reflexivity).
  assert (R : forall r, exists c r', String " " r = String c r' /\ gap_char c = true) by (intros r; eexists; eexists; split; reflexivity).
  split; [|split; [|split; [|split; vm_compute; reflexivity]]].
  - apply (W "" "1" ["2"] " 2"); [reflexivity|discriminate|reflexivity|right; apply R|]. apply (W " " "2" [] ""); [reflexivity|discriminate|reflexivity|auto|exact Z0].
  - exists "10.5", "0", "1.0", []. split; [|repeat split].
    apply (W "" "10.5" _ " 7  0 1.0"); [reflexivity|discriminate|reflexivity|right; apply R|]. apply (W " " "7" _ "  0 1.0"); [reflexivity|discriminate|reflexivity|right; apply R|].
    apply (W "  " "0" _ " 1.0"); [reflexivity|discriminate|reflexivity|right; apply R|]. apply (W " " "1.0" _ ""); [reflexivity|discriminate|reflexivity|auto|exact Z0].
  - exists "2", "2", []. split; [|repeat split].
    apply (W " " "3" _ " 2 2"); [reflexivity|discriminate|reflexivity|right; apply R|]. apply (W " " "2" _ " 2"); [reflexivity|discriminate|reflexivity|right; apply R|].
    apply (W " " "2" _ ""); [reflexivity|discriminate|reflexivity|auto|exact Z0].
Qed.

Print Assumptions C147_facility.
Print Assumptions C147_vrp.

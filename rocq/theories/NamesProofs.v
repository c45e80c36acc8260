(** Injectivity of the name formats. *)
From Coq Require Import DecimalString DecimalNat.
From Verif Require Import Base BaseLemmas NamesModel.
Set Default Goal Selector "!".
Local Open Scope string_scope.

Lemma app_inj_l p a b : p ++ a = p ++ b -> a = b.
Proof. induction p as [|c p IH]; cbn; [auto|]. intros H. injection H as H. auto. Qed.

Lemma app_assoc' a b c : (a ++ b) ++ c = a ++ (b ++ c).
Proof. induction a as [|x a IH]; cbn; [reflexivity|]. now rewrite IH. Qed.

Lemma len_app a b : String.length (a ++ b) = String.length a + String.length b.
Proof. induction a as [|x a IH]; cbn; [reflexivity|]. now rewrite IH. Qed.

Lemma app_inj_r a b s : a ++ s = b ++ s -> a = b.
Proof.
  revert b. induction a as [|x a IH]; intros b H; destruct b as [|y b]; cbn in H.
  - reflexivity.
  - apply (f_equal String.length) in H. cbn in H. rewrite len_app in H. lia.
  - apply (f_equal String.length) in H. cbn in H. rewrite len_app in H. lia.
  - injection H as -> H. f_equal. auto.
Qed.

(** Occurrences of a character. *)
Fixpoint has_char (c : ascii) (s : string) : bool :=
  match s with "" => false | String a t => Ascii.eqb a c || has_char c t end.

(** Splitting at the first separator is unique. *)
Lemma split_sep c a b x y : has_char c a = false -> has_char c b = false ->
  a ++ String c x = b ++ String c y -> a = b /\ x = y.
Proof.
  revert b. induction a as [|u a IH]; intros b Ha Hb H; destruct b as [|v b]; cbn in *.
  - injection H as ->. auto.
  - injection H as <- _. rewrite Ascii.eqb_refl in Hb. discriminate.
  - injection H as -> _. rewrite Ascii.eqb_refl in Ha. discriminate.
  - injection H as <- H. apply orb_false_iff in Ha as [_ Ha]. apply orb_false_iff in Hb as [_ Hb].
    destruct (IH b Ha Hb H) as [-> ->]. auto.
Qed.

(** ** Padded numbers *)
Lemma fmt02_read n : exists d, NilEmpty.uint_of_string (fmt02 n) = Some d /\ Nat.of_uint d = n.
Proof.
  unfold fmt02, str_nat. destruct (Nat.ltb _ 2).
  - exists (Decimal.D0 (Nat.to_uint n)). split.
    + cbn [append NilEmpty.uint_of_string]. rewrite NilEmpty.usu. reflexivity.
    + exact (DecimalNat.Unsigned.of_to n).
  - exists (Nat.to_uint n). split; [apply NilEmpty.usu|apply DecimalNat.Unsigned.of_to].
Qed.

Lemma fmt02_inj n m : fmt02 n = fmt02 m -> n = m.
Proof.
  intros E. destruct (fmt02_read n) as (d & A & <-). destruct (fmt02_read m) as (d' & B & <-).
  rewrite E in A. congruence.
Qed.

Lemma uint_no_char c d : Ascii.eqb c "0" = false -> Ascii.eqb c "1" = false -> Ascii.eqb c "2" = false ->
  Ascii.eqb c "3" = false -> Ascii.eqb c "4" = false -> Ascii.eqb c "5" = false -> Ascii.eqb c "6" = false ->
  Ascii.eqb c "7" = false -> Ascii.eqb c "8" = false -> Ascii.eqb c "9" = false ->
  has_char c (NilEmpty.string_of_uint d) = false.
Proof.
  intros. induction d; cbn [NilEmpty.string_of_uint has_char]; [reflexivity|..];
    rewrite Ascii.eqb_sym; apply orb_false_iff; auto.
Qed.

Lemma fmt02_no_us n : has_char "_" (fmt02 n) = false.
Proof.
  unfold fmt02, str_nat. assert (has_char "_" (NilEmpty.string_of_uint (Nat.to_uint n)) = false) as H
    by (apply uint_no_char; reflexivity).
  destruct (Nat.ltb _ 2); cbn [append has_char]; rewrite ?H; reflexivity.
Qed.

Lemma fmt02_length n : 2 <= String.length (fmt02 n).
Proof.
  unfold fmt02. destruct (Nat.ltb_spec (String.length (str_nat n)) 2) as [H|H]; [|exact H].
  cbn [append String.length]. assert (String.length (str_nat n) <> 0); [|lia].
  unfold str_nat. intros K.
  assert (NilEmpty.string_of_uint (Nat.to_uint n) = "") as E.
  { destruct (NilEmpty.string_of_uint (Nat.to_uint n)); [reflexivity|discriminate]. }
  assert (Nat.to_uint n = Decimal.Nil) as Z.
  { pose proof (NilEmpty.usu (Nat.to_uint n)) as U. rewrite E in U. cbn in U. congruence. }
  pose proof (DecimalNat.Unsigned.to_of (Nat.to_uint n)) as T.
  rewrite DecimalNat.Unsigned.of_to in T. rewrite Z in T. discriminate T.
Qed.

(** ** Replacement *)
Fixpoint occurs (p s : string) : bool :=
  String.prefix p s || match s with "" => false | String _ t => occurs p t end.

Lemma prefix_tif s : String.prefix ".tif" s = true -> exists r, s = ".tif" ++ r.
Proof.
  intros H. destruct s as [|a [|b [|c [|d r]]]]; cbn [String.prefix] in H; try discriminate;
    repeat (match type of H with context [ascii_dec ?x ?y] => destruct (ascii_dec x y); [subst|discriminate] end);
    try discriminate.
  exists r. reflexivity.
Qed.

Lemma prefix_app_tif s r : occurs ".tif" s = false -> s <> "" ->
  String.prefix ".tif" (s ++ ".tif" ++ r) = false.
Proof.
  intros H N. destruct (String.prefix ".tif" (s ++ ".tif" ++ r)) eqn:E; [|reflexivity].
  apply prefix_tif in E as (q & E).
  destruct s as [|a s]; [congruence|].
  destruct s as [|b s]; [discriminate E|].
  destruct s as [|c s]; [discriminate E|]. destruct s as [|d s]; [discriminate E|].
  cbn in E. injection E as -> -> -> -> E.
  cbn [occurs] in H. apply orb_false_iff in H as [H _]. destruct s; vm_compute in H; discriminate H.
Qed.

Lemma replace_tail fuel stem new : occurs ".tif" stem = false ->
  String.length stem + 2 <= fuel ->
  py_replace_fuel fuel ".tif" new (stem ++ ".tif") = stem ++ new.
Proof.
  revert fuel. induction stem as [|a stem IH]; intros fuel H L;
    (destruct fuel as [|fuel]; [cbn in L; lia|]).
  - cbn. destruct fuel as [|fuel]; [cbn in L; lia|]. cbn.
    induction new as [|x new IHn]; [reflexivity|]. cbn. now rewrite IHn.
  - cbn [py_replace_fuel append].
    pose proof (prefix_app_tif (String a stem) "" H ltac:(discriminate)) as P.
    cbn [append] in P. rewrite P. f_equal. cbn [String.length] in L.
    apply IH; [|lia]. cbn [occurs] in H. apply orb_false_iff in H as [_ H]. exact H.
Qed.

Lemma replace_end stem new : occurs ".tif" stem = false ->
  py_replace ".tif" new (stem ++ ".tif") = stem ++ new.
Proof. intros H. apply replace_tail; [exact H|]. rewrite len_app. cbn. lia. Qed.

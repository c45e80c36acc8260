(** The JSON reader inverts the writer. *)
From Coq Require Import DecimalString DecimalZ.
From Verif Require Import Base BaseLemmas TileModel JsonModel.
From Coq Require Import ZifyBool.
Set Default Goal Selector "!".
Local Open Scope string_scope.

(** Induction on nested values. *)
Lemma json_ind' (P : json -> Prop) :
  (forall z, P (JInt z)) -> (forall l, Forall P l -> P (JArr l)) ->
  (forall l, Forall (fun kv => P (snd kv)) l -> P (JObj l)) -> forall v, P v.
Proof.
  intros HI HA HO. fix F 1. intros [z|l|l].
  - apply HI.
  - apply HA. induction l as [|x l IH]; constructor; [apply F|exact IH].
  - apply HO. induction l as [|[k x] l IH]; constructor; [apply F|exact IH].
Qed.

Fixpoint jsize (v : json) : nat :=
  match v with
  | JInt _ => 1
  | JArr l => S ((fix go l := match l with [] => 0 | x :: t => S (jsize x + go t) end) l)
  | JObj l => S ((fix go (l : list (string * json)) :=
                    match l with [] => 0 | (_, x) :: t => S (jsize x + go t) end) l)
  end.
Fixpoint asize (l : list json) : nat :=
  match l with [] => 0 | x :: t => S (jsize x + asize t) end.
Fixpoint osize (l : list (string * json)) : nat :=
  match l with [] => 0 | (_, x) :: t => S (jsize x + osize t) end.
Lemma jsize_arr l : jsize (JArr l) = S (asize l).
Proof. reflexivity. Qed.
Lemma jsize_obj l : jsize (JObj l) = S (osize l).
Proof. reflexivity. Qed.

Definition more_arr (lvl : nat) (k : string) : list json -> string :=
  fix more l := match l with
  | [] => nl lvl ("]" ++ k)
  | y :: t => "," ++ nl (S lvl) (pp (S lvl) y (more t)) end.
Definition more_obj (lvl : nat) (k : string) : list (string * json) -> string :=
  fix more l := match l with
  | [] => nl lvl ("}" ++ k)
  | (key, y) :: t => "," ++ nl (S lvl) ("""" ++ key ++ """: " ++ pp (S lvl) y (more t)) end.
Lemma pp_arr lvl x xs k :
  pp lvl (JArr (x :: xs)) k = "[" ++ nl (S lvl) (pp (S lvl) x (more_arr lvl k xs)).
Proof. reflexivity. Qed.
Lemma pp_obj lvl key x xs k :
  pp lvl (JObj ((key, x) :: xs)) k
  = "{" ++ nl (S lvl) ("""" ++ key ++ """: " ++ pp (S lvl) x (more_obj lvl k xs)).
Proof. reflexivity. Qed.

(** Keys: no quote inside. *)
Definition good_key (s : string) : Prop := forall r, span_key (s ++ String """" r) = Some (s, r).
Inductive good : json -> Prop :=
  | good_int z : good (JInt z)
  | good_arr l : Forall good l -> good (JArr l)
  | good_obj l : Forall (fun kv => good_key (fst kv) /\ good (snd kv)) l -> good (JObj l).

Definition no_num (s : string) : Prop :=
  match s with "" => True | String a _ => is_num a = false end.

Lemma skip_spaces n k : skip (spaces n k) = skip k.
Proof. induction n as [|n IH]; [reflexivity|]. cbn [spaces skip]. exact IH. Qed.
Lemma skip_nl n k : skip (nl n k) = skip k.
Proof. unfold nl. cbn [append newline skip]. apply skip_spaces. Qed.

(** ** Numbers *)
Lemma span_uint d r : no_num r ->
  span_num (NilEmpty.string_of_uint d ++ r) = (NilEmpty.string_of_uint d, r).
Proof.
  intros H. induction d; cbn [NilEmpty.string_of_uint append span_num];
    try (match goal with |- context [is_num ?a] => change (is_num a) with true end;
         cbn [Bool.eqb]; rewrite IHd; reflexivity).
  destruct r as [|a r]; [reflexivity|]. cbn [span_num]. cbn in H. now rewrite H.
Qed.

Lemma span_int z r : no_num r -> span_num (str_Z z ++ r) = (str_Z z, r).
Proof.
  intros H. unfold str_Z. destruct (Z.to_int z) as [d|d]; cbn [NilEmpty.string_of_int].
  - now apply span_uint.
  - cbn [append span_num]. change (is_num "-") with true. cbv iota. now rewrite span_uint.
Qed.

Lemma str_Z_head z : exists a s, str_Z z = String a s /\ is_num a = true.
Proof.
  unfold str_Z. assert (Z.to_int z <> Decimal.Pos Decimal.Nil) as Hp.
  { intros K. assert (Z.to_int z = Decimal.norm (Z.to_int z)) as E.
    { rewrite <- DecimalZ.to_of, DecimalZ.of_to. reflexivity. }
    rewrite K in E. discriminate E. }
  destruct (Z.to_int z) as [d|d]; cbn [NilEmpty.string_of_int].
  - destruct d; cbn [NilEmpty.string_of_uint]; try (eexists _, _; split; reflexivity). congruence.
  - eexists _, _; split; reflexivity.
Qed.

Lemma to_int_nonnil z : Z.to_int z <> Decimal.Pos Decimal.Nil /\ Z.to_int z <> Decimal.Neg Decimal.Nil.
Proof.
  assert (Z.to_int z = Decimal.norm (Z.to_int z)) as E.
  { rewrite <- DecimalZ.to_of, DecimalZ.of_to. reflexivity. }
  split; intros K; rewrite K in E; discriminate E.
Qed.

Lemma int_roundtrip z : NilZero.int_of_string (str_Z z) = Some (Z.to_int z).
Proof.
  destruct (to_int_nonnil z) as [H1 H2].
  unfold str_Z. rewrite <- (NilZero.isi (Z.to_int z) H1 H2). f_equal.
  destruct (Z.to_int z) as [d|d]; cbn; destruct d; try reflexivity; congruence.
Qed.

(** ** Values *)
Lemma nl_no_num lvl k : no_num (nl lvl k).
Proof. reflexivity. Qed.
Lemma more_arr_no_num lvl k l : no_num (more_arr lvl k l).
Proof. destruct l; reflexivity. Qed.
Lemma more_obj_no_num lvl k l : no_num (more_obj lvl k l).
Proof. destruct l as [|[? ?] ?]; reflexivity. Qed.

Definition parses (v : json) : Prop :=
  forall lvl k fuel s, no_num k -> jsize v <= fuel -> skip s = skip (pp lvl v k) ->
    parse fuel s = Some (v, k).

Lemma skip_pp_int z lvl k : skip (pp lvl (JInt z) k) = str_Z z ++ k.
Proof.
  cbn [pp]. destruct (str_Z_head z) as (a & s & E & H). rewrite E. cbn [append skip].
  assert (is_ws a = false) as ->; [|reflexivity].
  unfold is_num, is_ws in *. destruct (nat_of_ascii a) as [|n]; [discriminate|]. lia.
Qed.

Lemma skip_pp_head lvl v k : exists a r, skip (pp lvl v k) = String a r /\ a <> "]"%char /\ a <> "}"%char.
Proof.
  destruct v as [z|l|l].
  - rewrite skip_pp_int. destruct (str_Z_head z) as (a & s & E & H). rewrite E.
    exists a, (s ++ k). split; [reflexivity|]. split; intros ->; discriminate H.
  - destruct l as [|x l]; [|rewrite pp_arr]; eexists _, _; (split; [reflexivity|split; discriminate]).
  - destruct l as [|[key x] l]; [|rewrite pp_obj]; eexists _, _; (split; [reflexivity|split; discriminate]).
Qed.

Lemma parse_arr_ok lvl k l x fuel s :
  no_num k -> Forall parses (x :: l) -> asize (x :: l) <= fuel ->
  skip s = skip (pp (S lvl) x (more_arr lvl k l)) ->
  parse_arr fuel s = Some (x :: l, k).
Proof.
  intros Hk. revert x fuel s. induction l as [|y l IH]; intros x fuel s F Hf Hs;
    (destruct fuel as [|fuel]; [cbn in Hf; lia|]); cbn [parse_arr].
  - inversion_clear F as [|? ? Hx _]. cbn [asize] in Hf.
    rewrite (Hx (S lvl) (more_arr lvl k []) fuel s); [|apply more_arr_no_num|lia|exact Hs].
    cbn [more_arr]. rewrite skip_nl. reflexivity.
  - inversion F as [|? ? Hx F']; subst. cbn [asize] in Hf.
    rewrite (Hx (S lvl) (more_arr lvl k (y :: l)) fuel s); [|apply more_arr_no_num|lia|exact Hs].
    cbn [more_arr append skip]. change (is_ws ",") with false. cbv iota.
    rewrite (IH y fuel); [reflexivity|exact F'|cbn [asize] in *; lia|]. apply skip_nl.
Qed.

Lemma parse_obj_ok lvl k l key x fuel s :
  no_num k -> Forall (fun kv => good_key (fst kv) /\ parses (snd kv)) ((key, x) :: l) ->
  osize ((key, x) :: l) <= fuel ->
  skip s = """" ++ key ++ """: " ++ pp (S lvl) x (more_obj lvl k l) ->
  parse_obj fuel s = Some ((key, x) :: l, k).
Proof.
  intros Hk. revert key x fuel s. induction l as [|[key' y] l IH]; intros key x fuel s F Hf Hs;
    (destruct fuel as [|fuel]; [cbn in Hf; lia|]); cbn [parse_obj]; rewrite Hs; cbn [append].
  - inversion_clear F as [|? ? [Hkey Hx] _]. cbn [fst snd] in *. cbn [osize] in Hf.
    rewrite Hkey. cbn [skip]. change (is_ws ":") with false. cbv iota.
    rewrite (Hx (S lvl) (more_obj lvl k []) fuel); [|apply more_obj_no_num|lia|reflexivity].
    cbn [more_obj]. rewrite skip_nl. reflexivity.
  - inversion F as [|? ? [Hkey Hx] F']; subst. cbn [fst snd] in *. cbn [osize] in Hf.
    rewrite Hkey. cbn [skip]. change (is_ws ":") with false. cbv iota.
    rewrite (Hx (S lvl) (more_obj lvl k ((key', y) :: l)) fuel); [|apply more_obj_no_num|lia|reflexivity].
    cbn [more_obj append skip]. change (is_ws ",") with false. cbv iota.
    rewrite (IH key' y fuel); [reflexivity|exact F'|cbn [osize] in *; lia|]. rewrite skip_nl. reflexivity.
Qed.

Theorem parse_pp v : good v -> parses v.
Proof.
  induction v as [z|l IH|l IH] using json_ind'; intros G lvl k fuel s Hk Hf Hs;
    (destruct fuel as [|fuel]; [cbn in Hf; lia|]).
  - rewrite skip_pp_int in Hs. cbn [parse]. rewrite Hs.
    destruct (str_Z_head z) as (a & t & E & H).
    assert (span_num (str_Z z ++ k) = (str_Z z, k)) as Sp by now apply span_int.
    assert (match (let '(u, r) := span_num (str_Z z ++ k) in
                   match NilZero.int_of_string u with
                   | Some d => Some (JInt (Z.of_int d), r) | None => None end) with
            | r => r end = Some (JInt z, k)) as R.
    { rewrite Sp, int_roundtrip, DecimalZ.of_to. reflexivity. }
    rewrite E in *. cbn [append] in *.
    destruct a as [[] [] [] [] [] [] [] []]; try discriminate H; exact R.
  - inversion G as [|? GF|]; subst.
    destruct l as [|x l].
    + cbn [pp append skip] in Hs. change (is_ws "[") with false in Hs. cbv iota in Hs.
      cbn [parse]. rewrite Hs. reflexivity.
    + rewrite pp_arr in Hs. cbn [append skip] in Hs. change (is_ws "[") with false in Hs. cbv iota in Hs.
      cbn [parse]. rewrite Hs. rewrite skip_nl.
      destruct (skip_pp_head (S lvl) x (more_arr lvl k l)) as (a & r & E & N1 & N2).
      rewrite jsize_arr in Hf.
      assert (parse_arr fuel (nl (S lvl) (pp (S lvl) x (more_arr lvl k l))) = Some (x :: l, k)) as R.
      { apply (parse_arr_ok lvl); [exact Hk| |lia|apply skip_nl].
        rewrite Forall_forall in *. intros y Hy. apply IH; auto. }
      rewrite E, R.
      destruct a as [[] [] [] [] [] [] [] []]; try reflexivity; congruence.
  - inversion G as [| |? GF]; subst.
    destruct l as [|[key x] l].
    + cbn [pp append skip] in Hs. change (is_ws "{") with false in Hs. cbv iota in Hs.
      cbn [parse]. rewrite Hs. reflexivity.
    + rewrite pp_obj in Hs. cbn [append skip] in Hs. change (is_ws "{") with false in Hs. cbv iota in Hs.
      cbn [parse]. rewrite Hs. rewrite skip_nl. cbn [skip]. change (is_ws """") with false. cbv iota.
      rewrite jsize_obj in Hf.
      match goal with |- match parse_obj fuel ?t with _ => _ end = _ =>
        assert (parse_obj fuel t = Some ((key, x) :: l, k)) as -> end; [|reflexivity].
      apply (parse_obj_ok lvl); [exact Hk| |lia|].
      * rewrite Forall_forall in *. intros y Hy. split; [now apply GF|]. apply IH; [exact Hy|]. now apply GF.
      * rewrite skip_nl. reflexivity.
Qed.

(** ** Enough fuel *)
Lemma length_app s t : String.length (s ++ t) = String.length s + String.length t.
Proof. induction s as [|a s IH]; cbn; [reflexivity|]. now rewrite IH. Qed.
Lemma length_spaces n k : String.length (spaces n k) = n + String.length k.
Proof. induction n as [|n IH]; cbn; [reflexivity|]. now rewrite IH. Qed.
Lemma length_nl n k : String.length (nl n k) = S (4 * n + String.length k).
Proof. unfold nl. rewrite length_app, length_spaces. reflexivity. Qed.

Lemma pp_length v : forall lvl k, jsize v + String.length k <= String.length (pp lvl v k).
Proof.
  induction v as [z|l IH|l IH] using json_ind'; intros lvl k.
  - cbn [pp jsize]. rewrite length_app. destruct (str_Z_head z) as (a & s & -> & _). cbn. lia.
  - rewrite jsize_arr. destruct l as [|x l]; [cbn; lia|]. rewrite pp_arr.
    cbn [append String.length]. rewrite length_nl.
    inversion IH as [|? ? Hx IH']; subst. specialize (Hx (S lvl) (more_arr lvl k l)). cbn [asize].
    assert (asize l + String.length k <= String.length (more_arr lvl k l)); [|lia].
    clear Hx IH. induction l as [|y l IHl]; cbn [more_arr asize append String.length]; rewrite length_nl.
    + cbn. lia.
    + inversion IH' as [|? ? Hy IH'']; subst. specialize (Hy (S lvl) (more_arr lvl k l)).
      specialize (IHl IH''). fold (more_arr lvl k). lia.
  - rewrite jsize_obj. destruct l as [|[key x] l]; [cbn; lia|]. rewrite pp_obj.
    cbn [append String.length]. rewrite length_nl. cbn [String.length]. rewrite !length_app. cbn [String.length append].
    inversion IH as [|? ? Hx IH']; subst. specialize (Hx (S lvl) (more_obj lvl k l)). cbn [osize snd] in *.
    assert (osize l + String.length k <= String.length (more_obj lvl k l)); [|lia].
    clear Hx IH. induction l as [|[key' y] l IHl]; cbn [more_obj osize append String.length]; rewrite length_nl.
    + cbn. lia.
    + inversion IH' as [|? ? Hy IH'']; subst. specialize (Hy (S lvl) (more_obj lvl k l)). cbn [snd] in Hy.
      specialize (IHl IH''). fold (more_obj lvl k). cbn [String.length]. rewrite !length_app.
      cbn [String.length append]. lia.
Qed.

Theorem loads_dumps v : good v -> loads (dumps v) = Ok v.
Proof.
  intros G. unfold loads, dumps.
  rewrite (parse_pp v G 0 "" _ _ I); [reflexivity| |reflexivity].
  pose proof (pp_length v 0 ""). lia.
Qed.

(** ** Tile sets *)
Lemma good_tileset t : good (json_of_tileset t).
Proof.
  assert (good_key "shape") as K1 by (intros r; reflexivity).
  assert (good_key "tiles") as K2 by (intros r; reflexivity).
  assert (good_key "bounds") as K3 by (intros r; reflexivity).
  constructor. repeat constructor; cbn [fst snd]; auto.
  apply Forall_forall. intros x Hx. apply in_map_iff in Hx as (b & <- & _).
  constructor. repeat constructor.
Qed.

Lemma ints_of_map l : ints_of (map JInt l) = Ok l.
Proof. induction l as [|z l IH]; [reflexivity|]. cbn [map ints_of]. now rewrite IH. Qed.

Lemma tile_roundtrip b : tile_of_json (JObj [("bounds", JArr (map JInt (tolist b)))]) = Ok b.
Proof. destruct b. reflexivity. Qed.

Theorem tileset_roundtrip t : from_json (to_json t) = Ok t.
Proof.
  unfold from_json, to_json. rewrite loads_dumps by apply good_tileset. cbn [bind].
  destruct t as [[a b] ts]. cbn -[map_res tile_of_json tolist].
  assert (map_res tile_of_json (map (fun tt => JObj [("bounds", JArr (map JInt (tolist tt)))]) ts) = Ok ts) as ->;
    [|reflexivity].
  induction ts as [|x ts IH]; [reflexivity|]. cbn [map map_res].
  rewrite tile_roundtrip. cbn [bind]. now rewrite IH.
Qed.

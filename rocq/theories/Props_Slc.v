(** C50 and C51: the stack reader. *)
From Coq Require Import ZifyBool.
From Verif Require Import Base BaseLemmas TileModel NamesModel ThreeDModel SlcModel SlcSpec SlcProofs.
From Coq Require Import List.
Import ListNotations.
Set Default Goal Selector "!".
Local Open Scope string_scope.

(** * C51 *)

Definition has_prefix (p name : string) : Prop := exists rest, name = p ++ rest.

Lemma prefix_iff p s : String.prefix p s = true <-> has_prefix p s.
Proof.
  unfold has_prefix. revert s. induction p as [|c p IH]; intros s.
  - split; [intros _; exists s; reflexivity | intros _; destruct s; reflexivity].
  - destruct s as [|c' s]; cbn [String.prefix].
    + split; [discriminate|]. intros [r H]. discriminate.
    + destruct (ascii_dec c c') as [->|N].
      * rewrite IH. split; intros [r H]; exists r; [rewrite H; reflexivity|]. injection H as ->. reflexivity.
      * split; [discriminate|]. intros [r H]. injection H as H _. congruence.
Qed.

(** The interferograms (or SLCs) listed in a folder. *)
Definition listed (suffix : string) (listing : list string) (name : string) : Prop :=
  In name listing /\ has_suffix suffix name.

Lemma in_sorted_names suffix listing name :
  In name (sort_str (filter (ends_with suffix) listing)) <-> listed suffix listing name.
Proof.
  unfold listed. rewrite <- ends_with_spec, <- filter_In. split; apply Permutation_in; [|symmetry]; apply sort_str_perm.
Qed.

Lemma scan_linked_ok folder first l d d' :
  NoDup (map fst d) -> scan_linked folder first l d = Ok d' ->
  NoDup (map fst d') /\ exists ds, d' = (d ++ ds)%list /\
    Forall2 (fun slc e => has_prefix first slc /\ second_date slc (fst e) /\ snd e = Some (path_join folder slc)) l ds.
Proof.
  revert d. induction l as [|slc l IH]; intros d N; cbn [scan_linked].
  - intros [= <-]. split; [exact N|]. exists []. rewrite app_nil_r. split; [reflexivity|constructor].
  - destruct (String.prefix first slc) eqn:P; cbn [negb]; [|discriminate].
    pose proof (py_split_second slc) as F. destruct (py_split slc) as [|x [|f r]]; [discriminate|discriminate|].
    destruct (dict_has (first8 f) d) eqn:H; [discriminate|]. intros E.
    apply IH in E as (N' & ds & -> & Fa).
    + split; [exact N'|]. exists ((first8 f, Some (path_join folder slc)) :: ds).
      split; [rewrite <- app_assoc; reflexivity|]. constructor; [|exact Fa]. cbn [fst snd].
      split; [apply prefix_iff, P|]. split; [|reflexivity]. exists f. split; [exact F|apply first8_starts].
    + rewrite map_app. cbn [map fst]. apply NoDup_app_intro; [exact N|repeat constructor; intros []|].
      intros x0 H0 [<-|[]]. apply dict_has_spec in H0. congruence.
Qed.

Lemma scan_linked_total folder first l d :
  NoDup l ->
  (forall slc, In slc l -> has_prefix first slc) ->
  (forall slc, In slc l -> exists date, second_date slc date) ->
  (forall slc date, In slc l -> second_date slc date -> ~ In date (map fst d)) ->
  (forall a b date, In a l -> In b l -> second_date a date -> second_date b date -> a = b) ->
  exists d', scan_linked folder first l d = Ok d'.
Proof.
  revert d. induction l as [|slc l IH]; intros d N P S K U; cbn [scan_linked]; [eauto|].
  rewrite (proj2 (prefix_iff first slc)) by (apply P; left; reflexivity). cbn [negb].
  pose proof (py_split_second slc) as F.
  destruct (S slc (or_introl eq_refl)) as (date & b & Fb & Sb).
  destruct (py_split slc) as [|x [|f r]]; [exfalso; eapply F; eassumption|exfalso; eapply F; eassumption|].
  assert (D : second_date slc (first8 f)) by (exists f; split; [exact F|apply first8_starts]).
  destruct (dict_has (first8 f) d) eqn:H.
  { exfalso. apply dict_has_spec in H. eapply K; [left; reflexivity|exact D|exact H]. }
  inversion N as [|? ? N1 N2]; subst. apply IH; [exact N2| | | |].
  - intros a Ha. apply P. right. exact Ha.
  - intros a Ha. apply S. right. exact Ha.
  - intros a dt Ha Hd. rewrite map_app, in_app_iff. cbn [map fst]. intros [C|[<-|[]]].
    + eapply K; [right; exact Ha|exact Hd|exact C].
    + assert (slc = a) as -> by (eapply U; [left; reflexivity|right; exact Ha|exact D|exact Hd]). contradiction.
  - intros a b' dt Ha Hb. apply U; right; assumption.
Qed.

Lemma Forall2_length {A B} (R : A -> B -> Prop) l m : Forall2 R l m -> length l = length m.
Proof. induction 1 as [|a b l m _ _ IH]; [reflexivity|]. cbn [length]. rewrite IH. reflexivity. Qed.
Lemma Forall2_impl {A B} (R S : A -> B -> Prop) l m :
  (forall a b, R a b -> S a b) -> Forall2 R l m -> Forall2 S l m.
Proof. intros H. induction 1; constructor; auto. Qed.
Lemma forall2_in_l {A B} (R : A -> B -> Prop) l m x : Forall2 R l m -> In x l -> exists y, In y m /\ R x y.
Proof.
  induction 1 as [|a b l m H _ IH]; intros [].
  - subst. exists b. split; [left; reflexivity|exact H].
  - destruct IH as (y & H1 & H2); [assumption|]. exists y. split; [right; exact H1|exact H2].
Qed.
Lemma forall2_in_r {A B} (R : A -> B -> Prop) l m y : Forall2 R l m -> In y m -> exists x, In x l /\ R x y.
Proof.
  induction 1 as [|a b l m H _ IH]; intros [].
  - subst. exists a. split; [left; reflexivity|exact H].
  - destruct IH as (x & H1 & H2); [assumption|]. exists x. split; [right; exact H1|exact H2].
Qed.
(** Keys distinct: two left elements whose entries share a key are the same. *)
Lemma forall2_key_inj {A V} (key : A -> string -> Prop) l (ds : list (string * V)) a b k :
  (forall x k1 k2, key x k1 -> key x k2 -> k1 = k2) ->
  Forall2 (fun x e => key x (fst e)) l ds -> NoDup (map fst ds) ->
  In a l -> In b l -> key a k -> key b k -> a = b.
Proof.
  intros U F. induction F as [|x e l ds H F IH]; intros N Ia Ib Ka Kb; [destruct Ia|].
  destruct Ia as [<-|Ia].
  - destruct Ib as [<-|Ib]; [reflexivity|]. cbn [map] in N. inversion N as [|? ? N1 N2]; subst. exfalso. apply N1.
    rewrite (U _ _ _ H Ka). destruct (forall2_in_l _ _ _ _ F Ib) as (e' & Ie & Ke).
    rewrite (U _ _ _ Kb Ke). apply in_map, Ie.
  - cbn [map] in N. inversion N as [|? ? N1 N2]; subst. destruct Ib as [<-|Ib].
    + exfalso. apply N1. rewrite (U _ _ _ H Kb). destruct (forall2_in_l _ _ _ _ F Ia) as (e' & Ie & Ke).
      rewrite (U _ _ _ Ka Ke). apply in_map, Ie.
    + apply IH; assumption.
Qed.

Lemma dates_sorted d : NoDup (map fst d) ->
  StronglySorted str_le (dates_of d) /\ NoDup (dates_of d) /\
  (forall date, In date (dates_of d) <-> exists f, dict_get date d = Some f) /\
  length (dates_of d) = length d.
Proof.
  intros N. unfold dates_of. split; [apply sort_str_sorted|]. split.
  { eapply Permutation_NoDup; [symmetry; apply sort_str_perm|exact N]. }
  split.
  - intros date. split.
    + intros H. eapply Permutation_in in H; [|apply sort_str_perm].
      apply in_map_iff in H as ([k v] & <- & H). exists v. apply (proj2 (dict_get_nodup d k v N)), H.
    + intros (f & H). apply dict_get_nodup in H; [|exact N].
      eapply Permutation_in; [symmetry; apply sort_str_perm|]. apply (in_map fst) in H. exact H.
  - rewrite (Permutation_length (sort_str_perm _)). apply map_length.
Qed.

(** What a scanned phase-linked folder looks like: one sorted date per
    interferogram plus the reference; only the reference has no file; every other
    date has exactly the one interferogram named after it. *)
Theorem C51_phase_linked folder listing d :
  from_phase_linked_directory folder listing = Ok d ->
  In "temporal_coherence.tif" listing /\
  StronglySorted str_le (dates_of d) /\ NoDup (dates_of d) /\
  length (dates_of d) = S (length (filter (ends_with ".int.tif") listing)) /\
  exists ref,
    (forall name, listed ".int.tif" listing name -> has_prefix ref name) /\
    (forall date, dict_get date d = Some None <-> date = ref) /\
    (forall date f, dict_get date d = Some (Some f) <->
       exists name, listed ".int.tif" listing name /\ second_date name date /\ f = path_join folder name) /\
    (forall name, listed ".int.tif" listing name -> exists date, second_date name date /\ date <> ref) /\
    (forall date, In date (dates_of d) -> date = ref \/
       exists! name, listed ".int.tif" listing name /\ second_date name date).
Proof.
  unfold from_phase_linked_directory.
  destruct (existsb (String.eqb "temporal_coherence.tif") listing) eqn:Ec; cbn [negb]; [|discriminate].
  apply existsb_exists in Ec as (x & Ix & Ex). apply String.eqb_eq in Ex as <-.
  set (names := sort_str (filter (ends_with ".int.tif") listing)).
  assert (Hn : forall name, In name names <-> listed ".int.tif" listing name) by (intros name; apply in_sorted_names).
  assert (Ln : length names = length (filter (ends_with ".int.tif") listing))
    by (apply Permutation_length, sort_str_perm).
  clearbody names. destruct names as [|slc0 rest] eqn:En; [discriminate|].
  match goal with |- scan_linked _ ?r _ _ = _ -> _ => set (ref := r) end. clearbody ref.
  rewrite <- En in *. clear En slc0 rest.
  intros E. apply scan_linked_ok in E as (N & ds & -> & F); [|repeat constructor; intros []].
  destruct (dates_sorted _ N) as (D1 & D2 & D3 & D4).
  assert (N' := N). cbn [app map fst] in N'. inversion N' as [|? ? Nr Nd]; subst.
  split; [exact Ix|]. split; [exact D1|]. split; [exact D2|].
  split; [rewrite D4; cbn [app length]; rewrite <- (Forall2_length _ _ _ F); congruence|].
  assert (G : forall date f, dict_get date ([(ref, None)] ++ ds)%list = Some (Some f) <->
       exists name, listed ".int.tif" listing name /\ second_date name date /\ f = path_join folder name).
  { intros date f. rewrite (dict_get_nodup _ _ _ N). cbn [app In]. split.
    - intros [H|H]; [discriminate|]. destruct (forall2_in_r _ _ _ _ F H) as (slc & Is & _ & S & V).
      cbn [fst snd] in *. exists slc. split; [apply Hn, Is|]. split; [exact S|]. congruence.
    - intros (name & L & S & ->). right. apply Hn in L.
      destruct (forall2_in_l _ _ _ _ F L) as ([k v] & Ie & _ & S' & V). cbn [fst snd] in *.
      rewrite (second_date_unique _ _ _ S S'), <- V. exact Ie. }
  exists ref. split.
  { intros name L. apply Hn in L. destruct (forall2_in_l _ _ _ _ F L) as (e & _ & P & _). exact P. }
  split.
  { intros date. rewrite (dict_get_nodup _ _ _ N). cbn [app In]. split.
    - intros [[= <-]|H]; [reflexivity|]. destruct (forall2_in_r _ _ _ _ F H) as (slc & _ & _ & _ & V). discriminate.
    - intros ->. left. reflexivity. }
  split; [exact G|]. split.
  { intros name L. apply Hn in L. destruct (forall2_in_l _ _ _ _ F L) as (e & Ie & _ & S & _).
    exists (fst e). split; [exact S|]. intros C. apply Nr. rewrite <- C. apply in_map, Ie. }
  intros date Id. apply D3 in Id as ([f|] & Id).
  - right. apply G in Id as (name & L & S & _). exists name. split; [split; assumption|].
    intros name' [L' S']. apply Hn in L, L'.
    eapply (forall2_key_inj second_date names ds); [apply second_date_unique| |exact Nd|exact L|exact L'|exact S|exact S'].
    eapply Forall2_impl; [|exact F]. intros ? ? (_ & H & _). exact H.
  - left. apply dict_get_nodup in Id; [|exact N]. cbn [app In] in Id. destruct Id as [[= <-]|H]; [reflexivity|].
    destruct (forall2_in_r _ _ _ _ F H) as (slc & _ & _ & _ & V). discriminate.
Qed.

Lemma Forall_sorted_head x l : StronglySorted str_le (x :: l) -> forall y, In y (x :: l) -> str_le x y.
Proof.
  intros H y [<-|Hy]; [apply str_le_refl|]. inversion H as [|? ? _ Hf]; subst.
  eapply Forall_forall in Hf; eassumption.
Qed.

(** Exactly which folders are accepted. The reference date is read off the
    alphabetically first interferogram. *)
Theorem C51_accepts folder listing : NoDup listing ->
  (exists d, from_phase_linked_directory folder listing = Ok d) <->
  In "temporal_coherence.tif" listing /\
  exists name0 ref,
    listed ".int.tif" listing name0 /\ (forall name, listed ".int.tif" listing name -> str_le name0 name) /\
    first_date name0 ref /\
    (forall name, listed ".int.tif" listing name ->
       has_prefix ref name /\ (exists date, second_date name date) /\ ~ second_date name ref) /\
    (forall a b date, listed ".int.tif" listing a -> listed ".int.tif" listing b ->
       second_date a date -> second_date b date -> a = b).
Proof.
  intros Nl. unfold from_phase_linked_directory.
  destruct (existsb (String.eqb "temporal_coherence.tif") listing) eqn:Ec; cbn [negb].
  2:{ split; [intros [d H]; discriminate|]. intros [H _]. exfalso.
      assert (existsb (String.eqb "temporal_coherence.tif") listing = true)
        by (apply existsb_exists; eexists; split; [exact H|apply String.eqb_refl]). congruence. }
  apply existsb_exists in Ec as (x & Ix & Ex). apply String.eqb_eq in Ex as <-.
  set (names := sort_str (filter (ends_with ".int.tif") listing)).
  assert (Hn : forall name, In name names <-> listed ".int.tif" listing name) by (intros name; apply in_sorted_names).
  assert (Nn : NoDup names).
  { eapply Permutation_NoDup; [symmetry; apply sort_str_perm|]. apply NoDup_filter, Nl. }
  assert (Sn : StronglySorted str_le names) by apply sort_str_sorted.
  clearbody names. destruct names as [|slc0 rest] eqn:En.
  { split; [intros [d H]; discriminate|]. intros (_ & n0 & ref & L & _). apply Hn in L as []. }
  assert (H0 : In slc0 names) by (rewrite En; left; reflexivity).
  assert (F0 : first_date slc0 (first8 (hd "" (py_split slc0)))).
  { exists (hd "" (py_split slc0)). split; [apply py_split_hd|apply first8_starts]. }
  assert (Le : forall name, In name names -> str_le slc0 name).
  { intros name H. rewrite En in H. eapply Forall_sorted_head; [exact Sn|exact H]. }
  rewrite <- En in *. clear En rest. split.
  - intros [d E]. split; [exact Ix|].
    apply scan_linked_ok in E as (N & ds & -> & F); [|repeat constructor; intros []].
    cbn [app map fst] in N. inversion N as [|? ? Nr Nd]; subst.
    exists slc0, (first8 (hd "" (py_split slc0))). split; [apply Hn, H0|].
    split; [intros name L; apply Le, Hn, L|]. split; [exact F0|]. split.
    + intros name L. apply Hn in L. destruct (forall2_in_l _ _ _ _ F L) as (e & Ie & P & S & _).
      split; [exact P|]. split; [eauto|]. intros C. apply Nr. rewrite (second_date_unique _ _ _ C S). apply in_map, Ie.
    + intros a b date La Lb Sa Sb. apply Hn in La, Lb.
      eapply (forall2_key_inj second_date names ds); [apply second_date_unique| |exact Nd|exact La|exact Lb|exact Sa|exact Sb].
      eapply Forall2_impl; [|exact F]. intros ? ? (_ & H & _). exact H.
  - intros (_ & n0 & ref & L & Lmin & F & A & U). apply Hn in L.
    assert (slc0 = n0) as <- by (apply str_le_antisym; [apply Le, L | apply Lmin, Hn, H0]).
    rewrite (first_date_unique _ _ _ F F0) in A. apply scan_linked_total; [exact Nn| | | |].
    + intros slc H. apply A, Hn, H.
    + intros slc H. apply A, Hn, H.
    + intros slc date H S. cbn [map fst In]. intros [<-|[]]. eapply A; [apply Hn, H|exact S].
    + intros a b date Ha Hb. apply U; apply Hn; assumption.
Qed.

(** The same for a folder of coregistered SLCs: no reference, one date per file. *)
Lemma scan_slc_ok folder l d d' :
  NoDup (map fst d) -> scan_slc folder l d = Ok d' ->
  NoDup (map fst d') /\ exists ds, d' = (d ++ ds)%list /\
    Forall2 (fun slc e => first_date slc (fst e) /\ snd e = Some (path_join folder slc)) l ds.
Proof.
  revert d. induction l as [|slc l IH]; intros d N; cbn [scan_slc].
  - intros [= <-]. split; [exact N|]. exists []. rewrite app_nil_r. split; [reflexivity|constructor].
  - set (k := first8 (hd "" (py_split slc))).
    assert (D : first_date slc k) by (eexists; split; [apply py_split_hd|apply first8_starts]).
    destruct (dict_has k d) eqn:H; [discriminate|]. intros E. apply IH in E as (N' & ds & -> & Fa).
    + split; [exact N'|]. exists ((k, Some (path_join folder slc)) :: ds).
      split; [rewrite <- app_assoc; reflexivity|]. constructor; [|exact Fa]. split; [exact D|reflexivity].
    + rewrite map_app. cbn [map fst]. apply NoDup_app_intro; [exact N|repeat constructor; intros []|].
      intros x0 H0 [<-|[]]. apply dict_has_spec in H0. congruence.
Qed.

Lemma scan_slc_total folder l d :
  NoDup l ->
  (forall slc date, In slc l -> first_date slc date -> ~ In date (map fst d)) ->
  (forall a b date, In a l -> In b l -> first_date a date -> first_date b date -> a = b) ->
  exists d', scan_slc folder l d = Ok d'.
Proof.
  revert d. induction l as [|slc l IH]; intros d N K U; cbn [scan_slc]; [eauto|].
  set (k := first8 (hd "" (py_split slc))).
  assert (D : first_date slc k) by (eexists; split; [apply py_split_hd|apply first8_starts]).
  destruct (dict_has k d) eqn:H.
  { exfalso. apply dict_has_spec in H. eapply K; [left; reflexivity|exact D|exact H]. }
  inversion N as [|? ? N1 N2]; subst. apply IH; [exact N2| |].
  - intros a dt Ha Hd. rewrite map_app, in_app_iff. cbn [map fst]. intros [C|[<-|[]]].
    + eapply K; [right; exact Ha|exact Hd|exact C].
    + assert (slc = a) as -> by (eapply U; [left; reflexivity|right; exact Ha|exact D|exact Hd]). contradiction.
  - intros a b' dt Ha Hb. apply U; right; assumption.
Qed.

Theorem C51_slc folder listing d :
  from_slc_directory folder listing = Ok d ->
  In "inv_amp_dispersion.tif" listing /\
  StronglySorted str_le (dates_of d) /\ NoDup (dates_of d) /\
  length (dates_of d) = length (filter (ends_with ".slc.tif") listing) /\
  (forall date, dict_get date d <> Some None) /\
  (forall date f, dict_get date d = Some (Some f) <->
     exists name, listed ".slc.tif" listing name /\ first_date name date /\ f = path_join folder name) /\
  (forall date, In date (dates_of d) -> exists! name, listed ".slc.tif" listing name /\ first_date name date).
Proof.
  unfold from_slc_directory.
  destruct (existsb (String.eqb "inv_amp_dispersion.tif") listing) eqn:Ec; cbn [negb]; [|discriminate].
  apply existsb_exists in Ec as (x & Ix & Ex). apply String.eqb_eq in Ex as <-.
  set (names := sort_str (filter (ends_with ".slc.tif") listing)).
  assert (Hn : forall name, In name names <-> listed ".slc.tif" listing name) by (intros name; apply in_sorted_names).
  assert (Ln : length names = length (filter (ends_with ".slc.tif") listing))
    by (apply Permutation_length, sort_str_perm).
  clearbody names.
  intros E. apply scan_slc_ok in E as (N & ds & -> & F); [|constructor]. cbn [app] in *.
  destruct (dates_sorted _ N) as (D1 & D2 & D3 & D4).
  split; [exact Ix|]. split; [exact D1|]. split; [exact D2|].
  split; [rewrite D4, <- (Forall2_length _ _ _ F); exact Ln|].
  assert (NN : forall date, dict_get date ds <> Some None).
  { intros date C. apply dict_get_nodup in C; [|exact N].
    destruct (forall2_in_r _ _ _ _ F C) as (slc & _ & _ & V). discriminate. }
  split; [exact NN|].
  assert (G : forall date f, dict_get date ds = Some (Some f) <->
     exists name, listed ".slc.tif" listing name /\ first_date name date /\ f = path_join folder name).
  { intros date f. rewrite (dict_get_nodup _ _ _ N). split.
    - intros H. destruct (forall2_in_r _ _ _ _ F H) as (slc & Is & S & V).
      cbn [fst snd] in *. exists slc. split; [apply Hn, Is|]. split; [exact S|]. congruence.
    - intros (name & L & S & ->). apply Hn in L.
      destruct (forall2_in_l _ _ _ _ F L) as ([k v] & Ie & S' & V). cbn [fst snd] in *.
      rewrite (first_date_unique _ _ _ S S'), <- V. exact Ie. }
  split; [exact G|]. intros date Id. apply D3 in Id as ([f|] & Id); [|exfalso; eapply NN, Id].
  apply G in Id as (name & L & S & _). exists name. split; [split; assumption|].
  intros name' [L' S']. apply Hn in L, L'.
  eapply (forall2_key_inj first_date names ds); [apply first_date_unique| |exact N|exact L|exact L'|exact S|exact S'].
  eapply Forall2_impl; [|exact F]. intros ? ? (H & _). exact H.
Qed.

Theorem C51_slc_accepts folder listing : NoDup listing ->
  (exists d, from_slc_directory folder listing = Ok d) <->
  In "inv_amp_dispersion.tif" listing /\
  (forall a b date, listed ".slc.tif" listing a -> listed ".slc.tif" listing b ->
     first_date a date -> first_date b date -> a = b).
Proof.
  intros Nl. unfold from_slc_directory.
  destruct (existsb (String.eqb "inv_amp_dispersion.tif") listing) eqn:Ec; cbn [negb].
  2:{ split; [intros [d H]; discriminate|]. intros [H _]. exfalso.
      assert (existsb (String.eqb "inv_amp_dispersion.tif") listing = true)
        by (apply existsb_exists; eexists; split; [exact H|apply String.eqb_refl]). congruence. }
  apply existsb_exists in Ec as (x & Ix & Ex). apply String.eqb_eq in Ex as <-.
  set (names := sort_str (filter (ends_with ".slc.tif") listing)).
  assert (Hn : forall name, In name names <-> listed ".slc.tif" listing name) by (intros name; apply in_sorted_names).
  assert (Nn : NoDup names).
  { eapply Permutation_NoDup; [symmetry; apply sort_str_perm|]. apply NoDup_filter, Nl. }
  clearbody names. split.
  - intros [d E]. split; [exact Ix|].
    apply scan_slc_ok in E as (N & ds & -> & F); [|constructor]. cbn [app] in N.
    intros a b date La Lb Sa Sb. apply Hn in La, Lb.
    eapply (forall2_key_inj first_date names ds); [apply first_date_unique| |exact N|exact La|exact Lb|exact Sa|exact Sb].
    eapply Forall2_impl; [|exact F]. intros ? ? (H & _). exact H.
  - intros (_ & U). apply scan_slc_total; [exact Nn| |].
    + intros slc date _ _ [].
    + intros a b date Ha Hb. apply U; apply Hn; assumption.
Qed.

(** * C50 *)
Local Open Scope nat_scope.

Section Read.
  Context {C : Type} (one : C).

  (** Window-relative pixel (i, j) is selected. *)
  Definition selected (s : slc_stack C) (b : bbox) (i j : nat) : Prop :=
    i < Z.to_nat (xmax b - xmin b) /\ j < Z.to_nat (ymax b - ymin b) /\
    exists q, pixel_at (st_coh s) (Z.to_nat (xmin b) + i) (Z.to_nat (ymin b) + j) = Some (Some q) /\
      (st_threshold s < q)%Q.

  Lemma mask_selected s b i j : pixel_at (tile_mask s b) i j = Some true <-> selected s b i j.
  Proof.
    unfold tile_mask, selected. rewrite pixel_at_map, read_window_at.
    destruct (i <? Z.to_nat (xmax b - xmin b)) eqn:Ei; [|split; [discriminate|intros (H & _); lia]].
    destruct (j <? Z.to_nat (ymax b - ymin b)) eqn:Ej; [|split; [discriminate|intros (_ & H & _); lia]].
    cbn [andb]. destruct (pixel_at (st_coh s) _ _) as [x|]; cbn [option_map].
    - split.
      + intros [= H]. apply above_spec in H as (q & -> & H). split; [lia|]. split; [lia|]. eauto.
      + intros (_ & _ & q & [= ->] & H). f_equal. apply above_spec. eauto.
    - split; [discriminate|]. intros (_ & _ & q & H & _). discriminate.
  Qed.

  (** One column per selected pixel in row-major order; one row per date. *)
  Theorem C50_read_tile s b r : NoDup (map fst (st_files s)) -> read_tile one s b = Ok r ->
    exists (pts : list (Z * Z)) (rows : list (list C)),
      (* the array and its coordinates *)
      r = Irreg3D (NdArray [length (st_dates s); length pts] (concat rows))
            (NdArray [length pts; 2] (flat_map (fun p => [fst p; snd p]) pts)) 0%Z /\
      length rows = length (st_dates s) /\
      (* the pixels *)
      StronglySorted before pts /\
      (forall p, In p pts <-> exists i j, p = (Z.of_nat i, Z.of_nat j) /\ selected s b i j) /\
      (* the samples *)
      forall t date row, nth_error (st_dates s) t = Some date -> nth_error rows t = Some row ->
        length row = length pts /\
        match dict_get date (st_files s) with
        | None => False
        | Some None => forall c, c < length pts -> nth_error row c = Some one
        | Some (Some f) => exists img, st_slc s f = Some img /\
            forall c i j, nth_error pts c = Some (Z.of_nat i, Z.of_nat j) ->
              nth_error row c = pixel_at img (Z.to_nat (xmin b) + i) (Z.to_nat (ymin b) + j)
        end.
  Proof.
    intros N. unfold read_tile. set (msk := tile_mask s b). set (pts := nonzero msk).
    destruct (map_res (read_date one s b msk (length pts)) (st_dates s)) as [rows|] eqn:E; cbn [bind]; [|discriminate].
    apply map_res_spec in E.
    unfold irreg3d_init, nd_ndim. cbn [nd_shape length Z.of_nat Pos.of_succ_nat Pos.succ negb Z.eqb Pos.eqb Z.leb Z.compare].
    unfold py_nth. cbn. rewrite Nat.eqb_refl. cbn [negb]. intros [= <-].
    exists pts, rows. split; [reflexivity|]. split; [symmetry; apply (Forall2_length _ _ _ E)|].
    split; [apply nonzero_sorted|]. split.
    { intros p. split.
      - intros H. destruct (nonzero_form _ _ H) as (i & j & ->). exists i, j. split; [reflexivity|].
        apply mask_selected, nonzero_iff, H.
      - intros (i & j & -> & H). apply nonzero_iff, mask_selected, H. }
    intros t date row Ht Hr.
    assert (R : read_date one s b msk (length pts) date = Ok row).
    { clear -E Ht Hr. revert t Ht Hr. induction E as [|x y l m H E IH]; intros [|t] Ht Hr; cbn in *; try discriminate.
      - congruence.
      - eapply IH; eassumption. }
    unfold read_date in R. destruct (dict_get date (st_files s)) as [[f|]|]; [| |discriminate].
    - destruct (st_slc s f) as [img|]; [|discriminate]. pose proof (select_spec one _ _ _ R) as [SG ->].
      split; [apply map_length|]. exists img. split; [reflexivity|]. intros c i j Hc.
      rewrite nth_error_map. fold pts. rewrite Hc. cbn [option_map fst snd]. rewrite !Nat2Z.id.
      assert (H : pixel_at msk i j = Some true) by (apply nonzero_iff; eapply nth_error_In, Hc).
      pose proof (proj1 (mask_selected _ _ _ _) H) as (Bi & Bj & _).
      pose proof (read_window_at img b i j) as W.
      replace (i <? _) with true in W by lia. replace (j <? _) with true in W by lia. cbn [andb] in W. rewrite <- W.
      unfold pixel_at in H |- *. destruct (nth_error msk i) as [mr|] eqn:Em; [|discriminate].
      assert (Li : i < length (read_window img b)).
      { apply (f_equal (@length nat)) in SG. rewrite !map_length in SG. rewrite SG. apply nth_error_Some. congruence. }
      rewrite (nth_error_nth' _ [] Li). symmetry. apply nth_error_nth'.
      assert (EL : length (nth i (read_window img b) []) = length (nth i msk [])).
      { rewrite <- (map_nth (@length C)), <- (map_nth (@length bool)). f_equal. exact SG. }
      rewrite EL, (nth_error_nth _ _ [] Em). apply nth_error_Some. congruence.
    - injection R as <-. split; [apply repeat_length|]. intros c Hc.
      rewrite (nth_error_nth' _ one) by (rewrite repeat_length; exact Hc). f_equal. apply nth_repeat.
  Qed.

  (** Reading succeeds whenever every dated file exists on the grid of the
      quality file. *)
  Theorem C50_reads s b : NoDup (map fst (st_files s)) ->
    (forall date f, dict_get date (st_files s) = Some (Some f) ->
       exists img, st_slc s f = Some img /\ same_grid img (st_coh s)) ->
    exists r, read_tile one s b = Ok r.
  Proof.
    intros N H. unfold read_tile. set (msk := tile_mask s b). set (pts := nonzero msk).
    destruct (map_res_total (read_date one s b msk (length pts)) (st_dates s)) as [rows ->].
    - intros date Hd. apply (dates_sorted _ N) in Hd as ([f|] & Hd); unfold read_date; rewrite Hd; [|eauto].
      destruct (H _ _ Hd) as (img & -> & G). apply select_total.
      unfold msk, tile_mask. apply same_grid_map, same_grid_window, G.
    - cbn [bind]. unfold irreg3d_init, nd_ndim, py_nth. cbn. rewrite Nat.eqb_refl. cbn [negb]. eauto.
  Qed.

  (** A file on a different grid raises. *)
  Theorem C50_bad_grid s b date f img : NoDup (map fst (st_files s)) ->
    dict_get date (st_files s) = Some (Some f) -> st_slc s f = Some img ->
    ~ same_grid (read_window img b) (read_window (st_coh s) b) ->
    exists e, read_tile one s b = Err e.
  Proof.
    intros N D F G. destruct (read_tile one s b) as [r|e] eqn:E; [|eauto]. exfalso.
    unfold read_tile in E. destruct (map_res _ (st_dates s)) as [rows|] eqn:M; [|discriminate].
    apply map_res_spec in M.
    assert (Hd : In date (st_dates s)) by (apply (dates_sorted _ N); eauto).
    destruct (forall2_in_l _ _ _ _ M Hd) as (row & _ & R). unfold read_date in R. rewrite D, F in R.
    pose proof (select_spec one _ _ _ R) as [SG _]. apply G.
    unfold same_grid, tile_mask in *. rewrite SG, map_map. apply map_ext. intros x. apply map_length.
  Qed.

  (** The pixels used for the spatial graph (_unwrap.py:78-83) are the columns. *)
  Theorem C50_same_pixels s b r : NoDup (map fst (st_files s)) -> read_tile one s b = Ok r ->
    let graph_points := nonzero (map (map (above (st_threshold s))) (read_temporal_coherence s b)) in
    nth 1 (irreg_shape r) 0 = length graph_points /\
    nd_flat (i_xy r) = flat_map (fun p => [fst p; snd p]) graph_points.
  Proof.
    intros N H gp. destruct (C50_read_tile s b r N H) as (pts & rows & -> & _ & S & I & _).
    assert (pts = gp) as <-.
    { apply (sorted_unique before).
      - intros x. unfold before. lia.
      - intros x y z. unfold before. lia.
      - exact S.
      - apply nonzero_sorted.
      - intros p. rewrite I. split.
        + intros (i & j & -> & Hs). apply nonzero_iff, mask_selected, Hs.
        + intros Hp. destruct (nonzero_form _ _ Hp) as (i & j & ->). exists i, j. split; [reflexivity|].
          apply mask_selected, nonzero_iff, Hp. }
    split; reflexivity.
  Qed.

  (** Number of valid pixels of the whole raster = columns of the whole-raster tile. *)
  Lemma nonzero_length (m : list (list bool)) : length (nonzero m) = length (filter (fun x => x) (concat m)).
  Proof.
    pose proof (select_total m m eq_refl) as [l E].
    destruct (select_spec true m m l E) as [_ El].
    assert (Ll : length l = length (nonzero m)) by (rewrite El; apply map_length). rewrite <- Ll. clear El Ll.
    unfold select in E. destruct (same_shape m m); [|discriminate]. injection E as <-.
    induction m as [|row m IH]; [reflexivity|]. cbn [combine flat_map concat fst snd].
    rewrite app_length, filter_app, app_length, IH. f_equal. rewrite map_length.
    induction row as [|x row IHr]; [reflexivity|]. cbn [combine filter snd]. destruct x; cbn [length]; rewrite IHr; reflexivity.
  Qed.

  Theorem C50_valid_count (s : slc_stack C) b :
    xmin b = 0%Z -> ymin b = 0%Z ->
    (Z.of_nat (length (st_coh s)) <= xmax b)%Z ->
    (forall row, In row (st_coh s) -> (Z.of_nat (length row) <= ymax b)%Z) ->
    get_valid_count s = length (nonzero (tile_mask s b)).
  Proof.
    intros X Y Lx Ly. rewrite nonzero_length. unfold get_valid_count, tile_mask.
    assert (E : read_window (st_coh s) b = st_coh s).
    { unfold read_window. rewrite X, Y. cbn [Z.to_nat skipn]. rewrite !Z.sub_0_r.
      rewrite firstn_all2 by lia. rewrite <- (map_id (st_coh s)) at 2. apply map_ext_in. intros row Hr.
      apply firstn_all2. specialize (Ly row Hr). lia. }
    rewrite E. rewrite <- concat_map. generalize (concat (st_coh s)). intros l.
    induction l as [|x l IH]; [reflexivity|]. cbn [map filter]. destruct (above (st_threshold s) x); cbn [length]; rewrite IH; reflexivity.
  Qed.
End Read.

(** * A concrete folder and stack *)
Local Open Scope string_scope.

Example C51_witness :
  let listing := ["20200101_20200125.int.tif"; "temporal_coherence.tif"; "20200101_20200113.int.tif"; "notes.txt"] in
  NoDup listing /\
  from_phase_linked_directory "in" listing
  = Ok [("20200101", None); ("20200113", Some "in/20200101_20200113.int.tif");
        ("20200125", Some "in/20200101_20200125.int.tif")].
Proof.
  split; [|reflexivity].
  repeat constructor; cbn [In]; intros H; repeat destruct H as [H|H]; try discriminate; exact H.
Qed.

Example C51_slc_witness :
  from_slc_directory "in" ["b_2.slc.tif"; "inv_amp_dispersion.tif"; "a_1.slc.tif"]
  = Ok [("a", Some "in/a_1.slc.tif"); ("b", Some "in/b_2.slc.tif")].
Proof. reflexivity. Qed.

(** A duplicate, a foreign reference, a missing second field, an empty folder. *)
Example C51_rejects :
  from_phase_linked_directory "in" ["temporal_coherence.tif"; "1_2.int.tif"; "1_2_b.int.tif"] = Ok [("1", None); ("2.int.ti", Some "in/1_2.int.tif"); ("2", Some "in/1_2_b.int.tif")] /\
  from_phase_linked_directory "in" ["temporal_coherence.tif"; "20200101_20200113_a.int.tif"; "20200101_20200113_b.int.tif"] = Err ValueError /\
  from_phase_linked_directory "in" ["temporal_coherence.tif"; "20200101_20200113.int.tif"; "20200113_20200125.int.tif"] = Err ValueError /\
  from_phase_linked_directory "in" ["temporal_coherence.tif"; "x.int.tif"] = Err IndexError /\
  from_phase_linked_directory "in" ["temporal_coherence.tif"] = Err IndexError /\
  from_phase_linked_directory "in" ["20200101_20200113.int.tif"] = Err ValueError.
Proof. repeat split. Qed.

Local Open Scope nat_scope.
Definition demo_stack : slc_stack nat :=
  SlcStack [("1", None); ("2", Some "f")]
    [[Some 0; Some (9#10); None]; [Some (3#5); Some (7#10); Some 1]; [Some 1; Some 0; Some 1]]%Q (3#5)%Q
    (fun f => if String.eqb f "f" then Some [[10; 11; 12]; [20; 21; 22]; [30; 31; 32]] else None).

Example C50_witness :
  NoDup (map fst (st_files demo_stack)) /\
  read_tile 1 demo_stack (BBox 0 1 2 3)
  = Ok (Irreg3D (NdArray [2; 3] [1; 1; 1; 11; 21; 22]) (NdArray [3; 2] [0; 0; 1; 0; 1; 1]%Z) 0) /\
  get_valid_count demo_stack = 5.
Proof.
  split; [repeat constructor; cbn; intuition discriminate|]. split; reflexivity.
Qed.

Print Assumptions C50_read_tile.
Print Assumptions C50_reads.
Print Assumptions C50_bad_grid.
Print Assumptions C50_same_pixels.
Print Assumptions C50_valid_count.
Print Assumptions C51_phase_linked.
Print Assumptions C51_accepts.
Print Assumptions C51_slc.
Print Assumptions C51_slc_accepts.

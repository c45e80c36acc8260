(** Rounding and distances for Props_Cost.v. *)
From Coq Require Import Reals.
From Verif Require Import Base BaseLemmas CostModel CostSpec.
From Coq Require Import Lra ZifyBool.
Import ListNotations.
Set Default Goal Selector "!".
Local Open Scope R_scope.

Lemma int_part_bounds x : IZR (Int_part x) <= x < IZR (Int_part x) + 1.
Proof. pose proof (base_Int_part x). lra. Qed.

Lemma IZR_lt_succ a b : IZR a < IZR b + 1 -> (a <= b)%Z.
Proof. intros H. assert (a < b + 1)%Z by (apply lt_IZR; rewrite plus_IZR; exact H). lia. Qed.

Lemma rintR_nearest x : nearest x (rintR x).
Proof.
  unfold nearest, rintR. pose proof (int_part_bounds x) as B. set (n := Int_part x) in *. clearbody n.
  destruct (Rlt_dec (x - IZR n) (1 / 2)); [split; lra|].
  destruct (Rlt_dec (1 / 2) (x - IZR n)); [rewrite plus_IZR; split; lra|].
  destruct (Z.even n) eqn:E; [split; [lra|auto]|]. rewrite plus_IZR. split; [lra|]. intros _.
  rewrite Z.even_add, E. reflexivity.
Qed.

Lemma nearest_unique x n m : nearest x n -> nearest x m -> n = m.
Proof.
  intros [A1 A2] [B1 B2].
  assert (H1 : (n <= m + 1)%Z) by (apply le_IZR; rewrite plus_IZR; lra).
  assert (H2 : (m <= n + 1)%Z) by (apply le_IZR; rewrite plus_IZR; lra).
  destruct (Z.eq_dec n m) as [|N]; [assumption|]. exfalso.
  assert (C : n = (m + 1)%Z \/ m = (n + 1)%Z) by lia. destruct C as [-> | ->]; rewrite plus_IZR in *.
  - assert (E1 : Z.even (m + 1) = true) by (apply A2; lra). assert (E2 : Z.even m = true) by (apply B2; lra).
    rewrite Z.even_add, E2 in E1. discriminate.
  - assert (E1 : Z.even (n + 1) = true) by (apply B2; lra). assert (E2 : Z.even n = true) by (apply A2; lra).
    rewrite Z.even_add, E2 in E1. discriminate.
Qed.

Lemma nearest_mono x y n m : nearest x n -> nearest y m -> x <= y -> (n <= m)%Z.
Proof.
  intros A B L. destruct (Req_EM_T x y) as [<-|N]; [rewrite (nearest_unique x n m A B); lia|].
  destruct A as [A _], B as [B _].
  apply IZR_lt_succ. lra.
Qed.

Lemma nearest_int z : nearest (IZR z) z.
Proof. unfold nearest. split; [lra|]. intros [H|H]; lra. Qed.

Lemma norm_diff_distance p q : is_distance p q (norm_diff p q).
Proof.
  unfold is_distance, norm_diff. split; [apply sqrt_pos|]. rewrite sqrt_sqrt; [ring|].
  apply Rplus_le_le_0_compat; apply pow2_ge_0.
Qed.

Lemma distance_unique p q d d' : is_distance p q d -> is_distance p q d' -> d = d'.
Proof. intros [P E] [P' E']. apply Rsqr_inj; [exact P|exact P'|]. unfold Rsqr. congruence. Qed.

Lemma distance_zero p q d : is_distance p q d -> (d = 0 <-> p = q).
Proof.
  intros [P E]. destruct p as [a b], q as [c e]. cbn [fst snd] in E. split.
  - intros ->. assert (A : 0 <= (a - c) * (a - c)) by apply Rle_0_sqr. assert (B : 0 <= (b - e) * (b - e)) by apply Rle_0_sqr.
    assert (A0 : (a - c) * (a - c) = 0) by lra. assert (B0 : (b - e) * (b - e) = 0) by lra.
    apply Rmult_integral in A0, B0. f_equal; lra.
  - intros H. injection H as <- <-. assert (D : d * d = 0) by (rewrite E; ring). apply Rmult_integral in D. tauto.
Qed.

Lemma edge_cost_ok junk scale d : 0 < scale -> 0 < d ->
  exists c, edge_cost junk scale d = c /\ nearest (1 + scale / d) c /\ (1 <= c)%Z.
Proof.
  intros S D. unfold edge_cost. destruct (Req_EM_T d 0) as [C|_]; [lra|]. eexists. split; [reflexivity|].
  pose proof (rintR_nearest (1 + scale / d)) as N. split; [exact N|].
  assert (0 < scale / d) by (apply Rdiv_lt_0_compat; assumption).
  apply (nearest_mono 1 (1 + scale / d)); [apply nearest_int|exact N|lra].
Qed.

Lemma index_some {A} (l : list A) i x : nth_error l i = Some x -> index l i = Ok x.
Proof. unfold index. intros ->. reflexivity. Qed.

Lemma map_res_forall {A B} (f : A -> res B) (R : A -> B -> Prop) l :
  (forall a, In a l -> exists b, f a = Ok b /\ R a b) -> exists r, map_res f l = Ok r /\ Forall2 R l r.
Proof.
  induction l as [|a l IH]; intros H; cbn [map_res]; [exists []; split; [reflexivity|constructor]|].
  destruct (H a (or_introl eq_refl)) as (b & -> & Rb). cbn [bind].
  destruct IH as (r & -> & F); [intros x Hx; apply H; right; exact Hx|]. cbn [bind].
  exists (b :: r). split; [reflexivity|constructor; assumption].
Qed.

Lemma map_res_index {A} (l : list A) (is : list nat) : (forall i, In i is -> (i < length l)%nat) ->
  exists r, map_res (index l) is = Ok r /\ Forall2 (fun i x => nth_error l i = Some x) is r.
Proof.
  intros H. apply map_res_forall. intros i Hi. specialize (H i Hi). apply nth_error_Some in H.
  destruct (nth_error l i) as [x|] eqn:E; [|congruence]. exists x. split; [apply index_some, E|reflexivity].
Qed.

Lemma mean_centre l : l <> [] -> is_centre l (mean_point l).
Proof.
  intros H. assert (N : INR (length l) <> 0) by (destruct l; [contradiction|apply not_0_INR; discriminate]).
  unfold is_centre, mean_point, Rdiv. cbn [fst snd].
  split; rewrite <- Rmult_assoc; apply Rinv_r_simpl_m; exact N.
Qed.

Lemma centre_unique l c c' : l <> [] -> is_centre l c -> is_centre l c' -> c = c'.
Proof.
  intros H [A B] [A' B']. assert (N : INR (length l) <> 0) by (destruct l; [contradiction|apply not_0_INR; discriminate]).
  destruct c, c'. cbn [fst snd] in *. f_equal.
  - apply (Rmult_eq_reg_l (INR (length l))); [congruence|exact N].
  - apply (Rmult_eq_reg_l (INR (length l))); [congruence|exact N].
Qed.

(** * Centroid costs on a planar graph *)
From Verif Require Import GraphModel GraphSpec McfModel McfSpec DualProofs ResidueProofs FlowProofs.

Lemma index_pos pts v : (v < length pts)%nat -> index pts v = Ok (pos pts v).
Proof. intros H. apply index_some. unfold pos. apply nth_error_nth'. exact H. Qed.

Lemma map_res_ok {A B} (f : A -> res B) (g : A -> B) l :
  (forall a, In a l -> f a = Ok (g a)) -> map_res f l = Ok (map g l).
Proof.
  induction l as [|a l IH]; intros H; cbn [map_res map]; [reflexivity|].
  rewrite (H a (or_introl eq_refl)). cbn [bind]. rewrite IH; [reflexivity|]. intros x Hx. apply H. right. exact Hx.
Qed.

Lemma index_pred_nth {A} (l : list A) k d : (k < length l)%nat -> index_pred l (k + 1) = Ok (nth k l d).
Proof.
  intros H. replace (k + 1)%nat with (S k) by lia. cbn [index_pred]. apply index_some. apply nth_error_nth'. exact H.
Qed.

Lemma in_combine_fst {A B} (l : list A) (l' : list B) x : length l = length l' -> In x l -> exists y, In (x, y) (combine l l').
Proof.
  revert l'. induction l as [|a l IH]; intros [|b l'] L H; cbn [length] in L; try discriminate; [destruct H|].
  destruct H as [->|H]; [exists b; left; reflexivity|]. destruct (IH l') as (y & Hy); [lia|exact H|].
  exists y. right. exact Hy.
Qed.

Lemma cycle_node g c v : planar g -> In c (g_cycles g) -> In v c -> (v < g_npoints g)%nat.
Proof.
  intros P Hc Hv. assert (S : exists w, In (v, w) (sides c)).
  { destruct c as [|a t]; [destruct Hv|]. apply in_combine_fst; [|exact Hv]. rewrite app_length. cbn. lia. }
  destruct S as (w & S). assert (A : In (v, w) (all_sides g)) by (apply in_flat_map; exists c; auto).
  apply (pl_side g P) in A as [A|A]; apply (pl_lt g P) in A; lia.
Qed.

Lemma centroids_ok g pts : planar g -> length pts = g_npoints g ->
  map_res (centroid pts) (g_cycles g) = Ok (map (fun c => mean_point (corners pts c)) (g_cycles g)).
Proof.
  intros P L. apply map_res_ok. intros c Hc. unfold centroid. rewrite (map_res_ok _ (pos pts)).
  - reflexivity.
  - intros v Hv. apply index_pos. rewrite L. apply (cycle_node g c); assumption.
Qed.

Lemma cycle_nonempty g n : planar g -> (n < length (g_cycles g))%nat -> forall pts, corners pts (nth n (g_cycles g) []) <> [].
Proof.
  intros P H pts E. assert (I : In (nth n (g_cycles g) []) (g_cycles g)) by (apply nth_In; exact H).
  apply (pl_poly g P) in I. apply map_eq_nil in E. rewrite E in I. cbn in I. lia.
Qed.

(** A link is inside when both directions are traversed. *)
Lemma use_row_cases g i a b : planar g -> (i < length (g_links g))%nat -> nth i (g_links g) (0, 0)%nat = (a, b) ->
  (on_boundary g a b /\ snd (nth i (s_dual (dual_solver g)) (0, 0)%nat) = 0%nat) \/
  (~ on_boundary g a b /\ exists k k', (k < length (g_cycles g) /\ k' < length (g_cycles g))%nat /\
     nth i (s_dual (dual_solver g)) (0, 0)%nat = (k + 1, k' + 1)%nat /\
     ((In (a, b) (sides (nth k (g_cycles g) [])) /\ In (b, a) (sides (nth k' (g_cycles g) []))) \/
      (In (b, a) (sides (nth k (g_cycles g) [])) /\ In (a, b) (sides (nth k' (g_cycles g) []))))).
Proof.
  intros P Hi E. assert (Hin : In (a, b) (g_links g)) by (rewrite <- E; apply nth_In; exact Hi).
  assert (Hab : (a < b)%nat) by (apply (pl_lt g P) in Hin; lia).
  destruct (dual_nth g i Hi) as [D _]. rewrite D, E. cbn [fst snd].
  pose proof (uses_In g a b) as U. pose proof (planar_uses_ok g a b P Hin) as PU.
  assert (side_use : forall x y, In (x, y) (all_sides g) -> exists n, (n < length (g_cycles g))%nat /\ In (x, y) (sides (nth n (g_cycles g) []))).
  { intros x y H. apply in_flat_map in H as (c & Hc & H). apply (In_nth _ _ []) in Hc as (n & Hn & <-). exists n. auto. }
  clear D. revert U PU. generalize (uses g a b). intros u U PU.
  destruct PU as [c d Hd Hc|c c' d Hd Hc Hc']; cbn [use_row fst snd].
  - left. split; [|reflexivity]. split; [exact Hin|]. intros [S1 S2].
    apply side_use in S1 as (n1 & N1 & S1). apply side_use in S2 as (n2 & N2 & S2).
    assert (X1 : In ((n1 + 1)%nat, 1%Z) [(c, d)]) by (apply U; [exact Hab|]; exists n1; auto).
    assert (X2 : In ((n2 + 1)%nat, (-1)%Z) [(c, d)]) by (apply U; [exact Hab|]; exists n2; auto).
    destruct X1 as [X1|[]], X2 as [X2|[]]. congruence.
  - right.
    assert (X1 : In (c, d) [(c, d); (c', (- d)%Z)]) by (left; reflexivity).
    assert (X2 : In (c', (- d)%Z) [(c, d); (c', (- d)%Z)]) by (right; left; reflexivity).
    apply U in X1 as (k & Hk & -> & X1); [|exact Hab]. apply U in X2 as (k' & Hk' & -> & X2); [|exact Hab].
    assert (X : (In (a, b) (sides (nth k (g_cycles g) [])) /\ In (b, a) (sides (nth k' (g_cycles g) []))) \/
      (In (b, a) (sides (nth k (g_cycles g) [])) /\ In (a, b) (sides (nth k' (g_cycles g) [])))).
    { destruct Hd as [-> | ->]; destruct X1 as [[? X1]|[? X1]]; try discriminate; destruct X2 as [[? X2]|[? X2]]; try discriminate; auto. }
    split.
    + intros [_ B]. apply B. unfold all_sides. rewrite !in_flat_map.
      destruct X as [[S1 S2]|[S1 S2]]; split; eexists; (split; [|eassumption]); apply nth_In; assumption.
    + exists k, k'. auto.
Qed.

Lemma centroid_costs_planar junk g pts scale : planar g -> length pts = g_npoints g -> 0 < scale ->
  (forall a b k k', (k < length (g_cycles g))%nat -> (k' < length (g_cycles g))%nat ->
     In (a, b) (sides (nth k (g_cycles g) [])) -> In (b, a) (sides (nth k' (g_cycles g) [])) ->
     forall c, is_centre (corners pts (nth k (g_cycles g) [])) c -> is_centre (corners pts (nth k' (g_cycles g) [])) c -> False) ->
  exists costs, centroid_costs junk pts (g_cycles g) (s_dual (dual_solver g)) scale = Ok costs /\
    length costs = length (g_links g) /\
    forall i a b, (i < length (g_links g))%nat -> nth i (g_links g) (0, 0)%nat = (a, b) ->
      (on_boundary g a b -> nth i costs 0%Z = 0%Z) /\
      (~ on_boundary g a b -> (1 <= nth i costs 0%Z)%Z /\
         exists k k' c c' d, (k < length (g_cycles g) /\ k' < length (g_cycles g))%nat /\
           In (a, b) (sides (nth k (g_cycles g) [])) /\ In (b, a) (sides (nth k' (g_cycles g) [])) /\
           is_centre (corners pts (nth k (g_cycles g) [])) c /\ is_centre (corners pts (nth k' (g_cycles g) [])) c' /\
           is_distance c c' d /\ nearest (1 + scale / d) (nth i costs 0%Z)).
Proof.
  intros P L S H. unfold centroid_costs. rewrite (centroids_ok g pts P L). cbn [bind].
  set (cs := map _ (g_cycles g)). assert (Lc : length cs = length (g_cycles g)) by apply map_length.
  assert (Nc : forall k, (k < length (g_cycles g))%nat -> nth k cs (0, 0) = mean_point (corners pts (nth k (g_cycles g) []))).
  { intros k Hk. unfold cs. rewrite (nth_indep _ (0, 0) (mean_point (corners pts []))) by (rewrite map_length; exact Hk).
    rewrite (map_nth (fun c => mean_point (corners pts c))). reflexivity. }
  assert (Ce : forall k, (k < length (g_cycles g))%nat -> is_centre (corners pts (nth k (g_cycles g) [])) (nth k cs (0, 0))).
  { intros k Hk. rewrite Nc by exact Hk. apply mean_centre. apply cycle_nonempty; assumption. }
  clearbody cs.
  set (Rel := fun (l : nat * nat) (e : nat * nat) (z : Z) =>
      (on_boundary g (fst l) (snd l) -> z = 0%Z) /\
      (~ on_boundary g (fst l) (snd l) -> (1 <= z)%Z /\
         exists k k' c c' d, (k < length (g_cycles g) /\ k' < length (g_cycles g))%nat /\
           In (fst l, snd l) (sides (nth k (g_cycles g) [])) /\ In (snd l, fst l) (sides (nth k' (g_cycles g) [])) /\
           is_centre (corners pts (nth k (g_cycles g) [])) c /\ is_centre (corners pts (nth k' (g_cycles g) [])) c' /\
           is_distance c c' d /\ nearest (1 + scale / d) z)).
  destruct (dual_length g) as [DL _].
  destruct (map_res_forall (fun e => if (snd e =? 0)%nat then Ok 0%Z
                    else do p <- index_pred cs (fst e); do q <- index_pred cs (snd e);
                         Ok (edge_cost junk scale (norm_diff p q)))
     (fun e z => forall i, (i < length (g_links g))%nat -> nth i (s_dual (dual_solver g)) (0, 0)%nat = e -> Rel (nth i (g_links g) (0, 0)%nat) e z)
     (s_dual (dual_solver g))) as (costs & E & F).
  { intros e He.
    assert (C : snd e = 0%nat \/ snd e <> 0%nat) by lia. destruct C as [Hz|Hz].
    - rewrite Hz. cbn [Nat.eqb]. exists 0%Z. split; [reflexivity|]. intros i Hi Ei. unfold Rel.
      destruct (nth i (g_links g) (0, 0)%nat) as [a b] eqn:El. cbn [fst snd].
      destruct (use_row_cases g i a b P Hi El) as [[B _]|(B & k & k' & _ & D & _)]; [split; [auto|contradiction]|].
      rewrite Ei in D. rewrite D in Hz. cbn [snd] in Hz. lia.
    - rewrite (proj2 (Nat.eqb_neq _ _) Hz). apply (In_nth _ _ (0, 0)%nat) in He as (j & Hj & Ej). rewrite DL in Hj.
      destruct (nth j (g_links g) (0, 0)%nat) as [a b] eqn:El.
      destruct (use_row_cases g j a b P Hj El) as [[_ D]|(_ & k & k' & [Hk Hk'] & D & X)]; [rewrite Ej in D; contradiction|].
      rewrite Ej in D. clear Ej Hz. subst e. cbn [fst snd]. rewrite (index_pred_nth cs k (0, 0)) by lia. cbn [bind].
      rewrite (index_pred_nth cs k' (0, 0)) by lia. cbn [bind].
      pose proof (norm_diff_distance (nth k cs (0, 0)) (nth k' cs (0, 0))) as N.
      assert (ne : nth k cs (0, 0) <> nth k' cs (0, 0)).
      { intros Q. pose proof (Ce k Hk) as C1. pose proof (Ce k' Hk') as C2. rewrite <- Q in C2. destruct X as [[S1 S2]|[S1 S2]].
        - exact (H a b k k' Hk Hk' S1 S2 _ C1 C2).
        - exact (H a b k' k Hk' Hk S2 S1 _ C2 C1). }
      assert (pos_d : 0 < norm_diff (nth k cs (0, 0)) (nth k' cs (0, 0))).
      { assert (nz : norm_diff (nth k cs (0, 0)) (nth k' cs (0, 0)) <> 0).
        { intros Q. apply ne. apply (distance_zero _ _ _ N). exact Q. }
        destruct N as [[N0|N0] _]; [exact N0|]. rewrite <- N0 in nz. lra. }
      destruct (edge_cost_ok junk scale _ S pos_d) as (z & Ez & Nz & Pz). exists z. split; [f_equal; exact Ez|].
      intros i Hi Ei. unfold Rel. destruct (nth i (g_links g) (0, 0)%nat) as [a' b'] eqn:El'. cbn [fst snd].
      destruct (use_row_cases g i a' b' P Hi El') as [[_ D]|(B & j1 & j2 & [Hj1 Hj2] & D & X')]; [rewrite Ei in D; cbn in D; lia|].
      rewrite Ei in D. injection D as D1 D2. assert (j1 = k) by lia. assert (j2 = k') by lia. subst j1 j2.
      split; [contradiction|]. intros _. split; [exact Pz|]. destruct X' as [[S1 S2]|[S1 S2]].
      + exists k, k', (nth k cs (0, 0)), (nth k' cs (0, 0)), (norm_diff (nth k cs (0, 0)) (nth k' cs (0, 0))).
        repeat split; auto; try (apply Ce; assumption); try apply N; try apply Nz.
      + exists k', k, (nth k' cs (0, 0)), (nth k cs (0, 0)), (norm_diff (nth k cs (0, 0)) (nth k' cs (0, 0))).
        repeat split; auto; try (apply Ce; assumption); try apply N; try apply Nz.
        rewrite (proj2 N). ring. }
  exists costs. split; [exact E|]. assert (LF : length costs = length (g_links g)).
  { rewrite <- DL. clear - F. induction F; cbn [length]; [reflexivity|rewrite IHF; reflexivity]. }
  split; [exact LF|]. intros i a b Hi El.
  assert (G : Rel (nth i (g_links g) (0, 0)%nat) (nth i (s_dual (dual_solver g)) (0, 0)%nat) (nth i costs 0%Z)).
  { clear E. assert (F' : forall (R : nat * nat -> Z -> Prop) l r, Forall2 R l r -> forall j, (j < length l)%nat -> R (nth j l (0, 0)%nat) (nth j r 0%Z)).
    { clear. induction 1; intros [|j] Hj; cbn [length] in Hj; try lia; cbn [nth]; [assumption|apply IHForall2; lia]. }
    apply (F' _ _ _ F i); [lia|exact Hi|reflexivity]. }
  rewrite El in G. exact G.
Qed.

(** * Triangles *)
Lemma tri_side x y z a b : In (a, b) (sides [x; y; z]) ->
  exists w, (a, b, w) = (x, y, z) \/ (a, b, w) = (y, z, x) \/ (a, b, w) = (z, x, y).
Proof.
  cbn. intros [H|[H|[H|[]]]]; injection H as <- <-; eauto.
Qed.

Lemma tri_centre pts x y z c : is_centre (corners pts [x; y; z]) c ->
  3 * fst c = fst (pos pts x) + fst (pos pts y) + fst (pos pts z) /\
  3 * snd c = snd (pos pts x) + snd (pos pts y) + snd (pos pts z).
Proof. unfold is_centre, corners. cbn [map length fold_right INR]. intros [A B]. split; lra. Qed.

Lemma triangle_centres g simplices pts : planar g -> length pts = g_npoints g -> NoDup pts ->
  g_cycles g = map tri_cycle simplices ->
  (forall s s', In s simplices -> In s' simplices -> (forall v, In v (tri_cycle s) <-> In v (tri_cycle s')) -> s = s') ->
  forall a b k k', (k < length (g_cycles g))%nat -> (k' < length (g_cycles g))%nat ->
     In (a, b) (sides (nth k (g_cycles g) [])) -> In (b, a) (sides (nth k' (g_cycles g) [])) ->
     forall c, is_centre (corners pts (nth k (g_cycles g) [])) c -> is_centre (corners pts (nth k' (g_cycles g) [])) c -> False.
Proof.
  intros P L N C U a b k k' Hk Hk' S S' c K K'.
  assert (I : In (nth k (g_cycles g) []) (g_cycles g)) by (apply nth_In; exact Hk).
  assert (I' : In (nth k' (g_cycles g) []) (g_cycles g)) by (apply nth_In; exact Hk').
  assert (Hn : forall v, In v (nth k (g_cycles g) []) -> (v < length pts)%nat) by (intros v Hv; rewrite L; apply (cycle_node g _ v P I Hv)).
  assert (Hn' : forall v, In v (nth k' (g_cycles g) []) -> (v < length pts)%nat) by (intros v Hv; rewrite L; apply (cycle_node g _ v P I' Hv)).
  assert (Hs : forall u v, In (u, v) (sides (nth k (g_cycles g) [])) -> u <> v).
  { intros u v Huv. assert (A : In (u, v) (all_sides g)) by (apply in_flat_map; eauto).
    apply (pl_side g P) in A as [A|A]; apply (pl_lt g P) in A; lia. }
  assert (T : forall q, In q (g_cycles g) -> exists s, tri_cycle s = q /\ In s simplices).
  { intros q. rewrite C. rewrite in_map_iff. auto. }
  apply T in I as ([[x y] z] & E & I). apply T in I' as ([[x' y'] z'] & E' & I').
  rewrite <- E in S, K, Hn, Hs. rewrite <- E' in S', K', Hn'. cbn [tri_cycle] in *.
  apply tri_centre in K, K'. destruct K as [K1 K2], K' as [K1' K2'].
  assert (Hxy : x <> y) by (apply Hs; left; reflexivity).
  assert (Hyz : y <> z) by (apply Hs; right; left; reflexivity).
  assert (Hzx : z <> x) by (apply Hs; right; right; left; reflexivity).
  apply tri_side in S as (w & S). apply tri_side in S' as (w' & S').
  assert (W : pos pts w = pos pts w').
  { destruct S as [S|[S|S]]; injection S as -> -> ->; destruct S' as [S'|[S'|S']]; injection S' as <- <- <-;
      apply injective_projections; lra. }
  assert (Ww : w = w').
  { apply (proj1 (NoDup_nth pts (0, 0)) N); [apply Hn|apply Hn'|exact W].
    - destruct S as [S|[S|S]]; injection S as -> -> ->; cbn; auto.
    - destruct S' as [S'|[S'|S']]; injection S' as <- <- <-; cbn; auto. }
  assert (Q : (x, y, z) = (x', y', z')).
  { apply U; [exact I|exact I'|]. intros v. subst w'. cbn [tri_cycle In].
    destruct S as [S|[S|S]]; injection S as -> -> ->; destruct S' as [S'|[S'|S']]; injection S' as <- <- <-; tauto. }
  injection Q as <- <- <-. subst w'.
  destruct S as [S|[S|S]]; injection S as -> -> ->; destruct S' as [S'|[S'|S']]; injection S'; intros; congruence.
Qed.

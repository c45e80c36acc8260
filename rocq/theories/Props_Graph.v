(** Properties C01-C06: graph construction. *)
From Verif Require Import Base BaseLemmas GraphModel GraphSpec GraphProofs Hop3Proofs
  Reg2DProofs LaplacianProofs.
Set Default Goal Selector "!".

(** ** C01 *)
Theorem C01_hop3_links : forall npoints : Z,
  ((npoints < 4)%Z -> hop3 npoints = Err ValueError) /\
  ((4 <= npoints)%Z -> exists g, hop3 npoints = Ok g /\
     Z.of_nat (g_npoints g) = npoints /\
     (forall a b, In (a, b) (g_links g) <-> a < b < g_npoints g /\ b <= a + 3) /\
     NoDup (g_links g) /\
     StronglySorted lex_lt (g_links g) /\
     (Z.of_nat (length (g_links g)) = 3 * npoints - 6)%Z).
Proof.
  intros z. split.
  - intros H. unfold hop3. destruct (Z.ltb_spec z 4); [auto|lia].
  - intros H. rewrite <- (Z2Nat.id z) by lia. set (n := Z.to_nat z).
    assert (4 <= n) as Hn by lia. exists (hop3_graph n). split; [now apply hop3_ok|].
    cbn [hop3_graph g_npoints g_links]. repeat split; auto.
    + apply hop3_link_list_In in H0; lia.
    + apply hop3_link_list_In in H0; lia.
    + apply hop3_link_list_In in H0; lia.
    + intros ?. apply hop3_link_list_In; lia.
    + now apply sorted_NoDup, hop3_link_list_sorted.
    + now apply hop3_link_list_sorted.
    + rewrite hop3_link_list_length by auto. lia.
Qed.
Example C01_witness : exists g, hop3 6 = Ok g /\ length (g_links g) = 12
  /\ In (2, 5) (g_links g) /\ ~ In (1, 5) (g_links g).
Proof. eexists. vm_compute. split; [reflexivity|]. repeat split; intuition discriminate. Qed.

(** ** C02 *)
Theorem C02_hop3_planar : forall npoints : Z, (4 <= npoints)%Z ->
  exists g, hop3 npoints = Ok g /\ planar g /\
    (forall a b, on_boundary g a b <-> In (a, b) (g_links g) /\ listed hop3_boundary a b) /\
    (forall a b, In (a, b) hop3_boundary -> listed (g_links g) a b) /\
    g_npoints g + length (g_cycles g) = length (g_links g) + 1.
Proof.
  intros z H. rewrite <- (Z2Nat.id z) by lia. set (n := Z.to_nat z).
  assert (4 <= n) as Hn by lia. exists (hop3_graph n). split; [now apply hop3_ok|].
  split; [now apply hop3_planar|]. split; [|split].
  - intros a b. now apply hop3_boundary_ok.
  - intros a b Hb. unfold listed. cbn [hop3_graph g_links]. rewrite !hop3_link_list_In by auto.
    cbn in Hb. repeat (destruct Hb as [Hb|Hb]; [injection Hb as <- <-; lia|]). destruct Hb.
  - now apply hop3_euler.
Qed.
Example C02_witness : exists g, hop3 5 = Ok g /\ length (g_cycles g) = 5
  /\ In [1; 3; 4] (g_cycles g) /\ on_boundary g 1 3.
Proof.
  eexists. split; [vm_compute; reflexivity|]. split; [reflexivity|]. split; [cbn; auto|].
  unfold on_boundary, all_sides. cbn. intuition discriminate.
Qed.

(** ** C03: pixel (i, j) (row, column) has point number i*w + j. *)
Theorem C03_reg2d_links : forall h w, 1 <= h -> 1 <= w ->
  exists g, reg2d h w = Ok g /\ g_npoints g = h * w /\
    (* every link joins two pixels *)
    (forall a b, In (a, b) (g_links g) -> a < b < h * w) /\
    (* exactly the right and down neighbours *)
    (forall i j i' j', i < h -> j < w -> i' < h -> j' < w ->
       (In (i * w + j, i' * w + j') (g_links g) <->
        (i' = i /\ j' = j + 1) \/ (i' = i + 1 /\ j' = j))) /\
    NoDup (g_links g) /\
    length (g_links g) + h + w = 2 * (h * w) /\
    (* points: (column, row) in row-major order *)
    length (reg2d_points h w) = h * w /\
    (forall i j, i < h -> j < w -> nth_error (reg2d_points h w) (i * w + j) = Some (j, i)).
Proof.
  intros h w Hh Hw. exists (reg2d_graph h w). split; [now apply reg2d_ok|].
  cbn [reg2d_graph g_npoints g_links]. split; [auto|]. split; [|split; [|split; [|split; [|split]]]].
  - intros a b H. apply reg2d_links_In in H as (i & j & -> & [(-> & H1 & H2)|(-> & H1 & H2)]).
    + pose proof (px_lt h w i (j + 1)). lia.
    + pose proof (px_lt h w (i + 1) j). lia.
  - intros. now apply reg2d_links_px.
  - apply reg2d_links_NoDup'.
  - rewrite reg2d_link_rows_length. destruct h, w; try lia; nia.
  - apply reg2d_points_length.
  - intros. now apply reg2d_points_nth.
Qed.
Example C03_witness : exists g, reg2d 3 4 = Ok g /\ length (g_links g) = 17
  /\ In (5, 9) (g_links g) /\ ~ In (3, 4) (g_links g).
Proof. eexists. vm_compute. split; [reflexivity|]. repeat split; intuition discriminate. Qed.

(** ** C04 *)
Theorem C04_reg2d_planar : forall h w, 2 <= h -> 2 <= w ->
  exists g, reg2d h w = Ok g /\ planar g /\
    (exists bd, reg2d_boundary h w = Ok bd /\ NoDup bd /\
       forall a b, on_boundary g a b <-> In (a, b) bd) /\
    g_npoints g + length (g_cycles g) = length (g_links g) + 1.
Proof.
  intros h w Hh Hw. exists (reg2d_graph h w). split; [apply reg2d_ok; lia|].
  split; [now apply reg2d_planar|]. split.
  - exists (reg2d_boundary_rows h w). split; [apply reg2d_boundary_ok; lia|].
    split; [now apply reg2d_boundary_NoDup|]. intros. now apply reg2d_boundary_iff.
  - apply reg2d_euler; lia.
Qed.
Example C04_witness : exists g, reg2d 2 3 = Ok g /\ g_cycles g = [[0; 3; 4; 1]; [1; 4; 5; 2]].
Proof. eexists. split; vm_compute; reflexivity. Qed.

(** ** C05: [a] and [b] sit at two different positions of the triangle. *)
Definition two_corners (s : nat * nat * nat) (a b : nat) : Prop :=
  exists i j, i < 3 /\ j < 3 /\ i <> j /\
    nth_error (tri_cycle s) i = Some a /\ nth_error (tri_cycle s) j = Some b.

Theorem C05_triangulation_links : forall npoints simplices,
  let g := delaunay npoints simplices in
  (forall a b, In (a, b) (g_links g) <->
     a <= b /\ exists s, In s simplices /\ two_corners s a b) /\
  NoDup (g_links g) /\ StronglySorted lex_lt (g_links g) /\
  g_cycles g = map tri_cycle simplices.
Proof.
  intros n simp g. cbn [g delaunay g_links g_cycles].
  pose proof (create_links_sorted simp) as Hs.
  split; [|exact (conj (sorted_NoDup _ Hs) (conj Hs eq_refl))]. clear Hs.
  intros a b. rewrite create_links_In. split.
  - intros ([[x y] z] & Hs & Hc). unfold corner in Hc. rewrite !order_points_spec in Hc.
    assert (a <= b) by (destruct Hc as [H|[H|H]]; injection H as -> ->; lia). split; auto.
    exists (x, y, z). split; auto. unfold two_corners. cbn [tri_cycle].
    destruct Hc as [E|[E|E]]; injection E as -> ->.
    + destruct (le_lt_dec x y); [exists 0, 1|exists 1, 0]; cbn; repeat split; auto; f_equal; lia.
    + destruct (le_lt_dec x z); [exists 0, 2|exists 2, 0]; cbn; repeat split; auto; f_equal; lia.
    + destruct (le_lt_dec y z); [exists 1, 2|exists 2, 1]; cbn; repeat split; auto; f_equal; lia.
  - intros (Hab & [[x y] z] & Hs & i & j & Hi & Hj & Hij & Ea & Eb). exists (x, y, z). split; auto.
    unfold corner. rewrite !order_points_spec. cbn [tri_cycle] in Ea, Eb.
    destruct i as [|[|[|i]]]; try lia; destruct j as [|[|[|j]]]; try lia; cbn in Ea, Eb;
      injection Ea as <-; injection Eb as <-;
      first [left; f_equal; lia | right; left; f_equal; lia | right; right; f_equal; lia].
Qed.
Example C05_witness : g_links (delaunay 4 [(2, 0, 1); (3, 1, 0)]) = [(0, 1); (0, 2); (0, 3); (1, 2); (1, 3)].
Proof. reflexivity. Qed.

(** ** C06: entry (i, j) of a dense matrix given as list of rows. *)
Definition entry (L : list (list Z)) (i j : nat) : Z := nth j (nth i L []) 0%Z.

Theorem C06_laplacian : forall links,
  links <> [] -> NoDup links -> (forall a b, In (a, b) links -> a < b) ->
  exists L n, graph_laplacian links = Ok L /\ length L = n /\ (forall row, In row L -> length row = n) /\
    (forall a b, In (a, b) links -> a < n /\ b < n) /\
    (forall i j, i < n -> j < n -> entry L i j = entry L j i) /\
    (forall i, i < n -> sumZ (nth i L []) = 0%Z) /\
    (forall i, i < n -> entry L i i = Z.of_nat (degree links i)) /\
    (forall i j, i < n -> j < n -> i <> j -> listed links i j -> entry L i j = (-1)%Z) /\
    (forall i j, i < n -> j < n -> i <> j -> ~ listed links i j -> entry L i j = 0%Z) /\
    (forall x : nat -> Q,
      sumQ (map (fun i => sumQ (map (fun j => x i * inject_Z (entry L i j) * x j) (seq 0 n))) (seq 0 n))
      == sumQ (map (fun l => (x (snd l) - x (fst l)) * (x (snd l) - x (fst l))) links))%Q.
Proof.
  intros links Hne Hnd Hlt.
  set (n := lap_n links).
  set (L := map (fun i => map (lap_entry links i) (seq 0 n)) (seq 0 n)).
  assert (forall i j, i < n -> j < n -> entry L i j = lap_entry links i j) as E.
  { intros i j Hi Hj. unfold entry, L. rewrite (map_nth' _ _ i 0) by now rewrite seq_length.
    rewrite seq_nth by auto. rewrite (map_nth' _ _ j 0) by now rewrite seq_length.
    now rewrite seq_nth. }
  exists L, n. split; [now apply laplacian_ok|].
  split; [unfold L; now rewrite map_length, seq_length|]. split.
  { intros row H. apply in_map_iff in H as (i & <- & _). now rewrite map_length, seq_length. }
  split; [intros a b H; now apply lap_n_bound in H|].
  repeat split.
  - intros. rewrite !E by auto. apply lap_sym.
  - intros i Hi. unfold L. rewrite (map_nth' _ _ i 0) by now rewrite seq_length.
    rewrite seq_nth by auto. apply lap_rowsum.
  - intros i Hi. rewrite E by auto. apply lap_diag. intros a b H. apply Hlt in H. lia.
  - intros. rewrite E by auto. now apply lap_off.
  - intros. rewrite E by auto. now apply lap_off.
  - intros x. rewrite <- lap_quadratic. fold n. apply sumQ_map_ext. intros i Hi.
    apply sumQ_map_ext. intros j Hj. rewrite in_seq in Hi, Hj. rewrite E by lia. reflexivity.
Qed.
Example C06_witness : graph_laplacian [(0, 1); (0, 2); (1, 2); (2, 3)] =
  Ok [[2; -1; -1; 0]; [-1; 2; -1; 0]; [-1; -1; 3; -1]; [0; 0; -1; 1]]%Z.
Proof. reflexivity. Qed.

Print Assumptions C01_hop3_links.
Print Assumptions C02_hop3_planar.
Print Assumptions C03_reg2d_links.
Print Assumptions C04_reg2d_planar.
Print Assumptions C05_triangulation_links.
Print Assumptions C06_laplacian.

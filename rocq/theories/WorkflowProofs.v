(** Facts about programs that read and write files. *)
From Verif Require Import Base BaseLemmas NamesModel WorkflowModel WorkflowSpec.
From Coq Require Import List ZifyBool.
Import ListNotations.
Set Default Goal Selector "!".

Lemma apply_app s a b : apply_writes s (a ++ b) = apply_writes (apply_writes s a) b.
Proof. apply fold_left_app. Qed.
Lemma store_ext s s' w : same_files s s' -> same_files (store s w) (store s' w).
Proof. intros H n. unfold store. destruct (String.eqb _ _); auto. Qed.
Lemma apply_ext ws : forall s s', same_files s s' -> same_files (apply_writes s ws) (apply_writes s' ws).
Proof. induction ws as [|w ws IH]; intros s s' H; [auto|]. cbn. apply IH, store_ext, H. Qed.
Lemma apply_notin ws : forall s n, ~ In n (map fst ws) -> apply_writes s ws n = s n.
Proof.
  induction ws as [|w ws IH]; intros s n H; [auto|]. cbn [apply_writes fold_left map In] in *. change (apply_writes (store s w) ws n = s n). rewrite IH by tauto.
  unfold store. destruct (String.eqb_spec n (fst w)); [|auto]. subst. tauto.
Qed.
Lemma apply_in ws : forall s n c, NoDup (map fst ws) -> In (n, c) ws -> apply_writes s ws n = Some c.
Proof.
  induction ws as [|w ws IH]; intros s n c H I; [destruct I|]. cbn in H. apply NoDup_cons_iff in H as [H1 H2].
  change (apply_writes (store s w) ws n = Some c). destruct I as [->|I]; [|now apply IH].
  rewrite apply_notin by exact H1. unfold store. cbn. now rewrite String.eqb_refl.
Qed.
Lemma apply_cases ws : forall s n, apply_writes s ws n = s n \/ exists c, apply_writes s ws n = Some c /\ In (n, c) ws.
Proof.
  induction ws as [|w ws IH]; intros s n; [now left|]. change (apply_writes s (w :: ws) n) with (apply_writes (store s w) ws n).
  destruct (IH (store s w) n) as [E|(c & E & I)]; [|right; exists c; split; [auto|now right]].
  rewrite E. unfold store. destruct (String.eqb_spec n (fst w)) as [->|_]; [|now left]. right. exists (snd w). split; [auto|]. left. now destruct w.
Qed.

(** ** Sequencing *)
Lemma run_then {A B} (p : prog A) (k : A -> prog B) : forall s,
  run (then_ p k) s =
  match snd (run p s) with
  | Ok a => let r := run (k a) (apply_writes s (fst (run p s))) in (fst (run p s) ++ fst r, snd r)
  | Err x => (fst (run p s), Err x)
  end.
Proof.
  induction p as [a|x|n c IH|n c q IH]; intros s; cbn [then_ run fst snd].
  - cbn. now destruct (run (k a) s).
  - reflexivity.
  - apply IH.
  - rewrite IH. destruct (snd (run q _)); reflexivity.
Qed.

Lemma then_inv {A B} (p : prog A) (k : A -> prog B) s ws b : run (then_ p k) s = (ws, Ok b) ->
  exists ws1 a ws2, run p s = (ws1, Ok a) /\ run (k a) (apply_writes s ws1) = (ws2, Ok b) /\ ws = ws1 ++ ws2.
Proof.
  rewrite run_then. destruct (run p s) as [ws1 [a|x]]; cbn [fst snd]; [|discriminate]. cbv zeta.
  destruct (run (k a) _) as [ws2 r] eqn:E. cbn [fst snd]. intros H. injection H as <- ->. exists ws1, a, ws2. auto.
Qed.
Lemma then_intro {A B} (p : prog A) (k : A -> prog B) s ws1 a ws2 r : run p s = (ws1, Ok a) ->
  run (k a) (apply_writes s ws1) = (ws2, r) -> run (then_ p k) s = (ws1 ++ ws2, r).
Proof. intros H1 H2. rewrite run_then, H1. cbn [fst snd]. cbv zeta. now rewrite H2. Qed.
Lemma then_pure {A B} (p : prog A) (k : A -> prog B) s a : run p s = ([], Ok a) -> run (then_ p k) s = run (k a) s.
Proof. intros H. rewrite run_then, H. cbn. now destruct (run (k a) s). Qed.
Lemma then_fail {A B} (p : prog A) (k : A -> prog B) s ws x : run p s = (ws, Err x) -> run (then_ p k) s = (ws, Err x).
Proof. intros H. now rewrite run_then, H. Qed.

Lemma run_ext {A} (p : prog A) : forall s s', same_files s s' -> run p s = run p s'.
Proof.
  induction p as [a|x|n c IH|n c q IH]; intros s s' H; cbn [run]; auto.
  - rewrite H. now apply IH.
  - now rewrite (IH _ _ (store_ext s s' (n, c) H)).
Qed.

Lemma run_lift {A} (r : res A) s : run (lift r) s = ([], r).
Proof. now destruct r. Qed.
Lemma lift_inv {A} (r : res A) s ws a : run (lift r) s = (ws, Ok a) -> ws = [] /\ r = Ok a.
Proof. destruct r; cbn; intros H; [injection H as <- <-; auto|discriminate]. Qed.
Lemma run_is_file n s : run (is_file n) s = ([], Ok (negb (absent s n))).
Proof. unfold is_file, absent. cbn. now destruct (s n). Qed.

Lemma run_missing {A} (name : A -> string) s : forall l,
  run (collect (fun i => let! b := is_file (name i) in Ret (if b then [] else [i])) l) s =
  ([], Ok (map (fun i => if absent s (name i) then [i] else []) l)).
Proof.
  induction l as [|i l IH]; [reflexivity|]. cbn [collect map].
  rewrite (then_pure _ _ _ (if absent s (name i) then [i] else [])).
  - rewrite (then_pure _ _ _ _ IH). reflexivity.
  - rewrite (then_pure _ _ _ _ (run_is_file (name i) s)). cbn. now destruct (absent s (name i)).
Qed.
Lemma concat_missing {A} (p : A -> bool) l : concat (map (fun i => if p i then [i] else []) l) = filter p l.
Proof. induction l as [|i l IH]; [auto|]. cbn. rewrite IH. now destruct (p i). Qed.

(** ** Names a program can write *)
Fixpoint only {A} (P : string -> Prop) (p : prog A) : Prop :=
  match p with
  | Ret _ | Fail _ => True
  | Read _ k => forall o, only P (k o)
  | Write n _ k => P n /\ only P k
  end.
Lemma only_then {A B} P (p : prog A) (k : A -> prog B) : only P p -> (forall a, only P (k a)) -> only P (then_ p k).
Proof. induction p as [a|x|n c IH|n c q IH]; cbn; intros H K; auto. destruct H. auto. Qed.
Lemma only_run {A} P (p : prog A) : forall s, only P p -> forall w, In w (fst (run p s)) -> P (fst w).
Proof.
  induction p as [a|x|n c IH|n c q IH]; intros s H w I; cbn in *; [destruct I|destruct I|eapply IH; eauto|].
  destruct H as [H1 H2], I as [<-|I]; [exact H1|]. eapply IH; eauto.
Qed.
Lemma only_frame {A} P (p : prog A) s ws r n : only P p -> run p s = (ws, r) -> ~ P n -> apply_writes s ws n = s n.
Proof.
  intros H E N. apply apply_notin. intros I. apply in_map_iff in I as (w & <- & I). apply N.
  apply (only_run P p s H). now rewrite E.
Qed.
Lemma only_weaken {A} (P R : string -> Prop) (p : prog A) : (forall n, P n -> R n) -> only P p -> only R p.
Proof. intros K. induction p as [a|x|n c IH|n c q IH]; cbn; auto. intros [? ?]. auto. Qed.
Lemma only_lift {A} P (r : res A) : only P (lift r).
Proof. now destruct r. Qed.
Lemma only_is_file P n : only P (is_file n).
Proof. cbn. auto. Qed.
Lemma only_each {A} P (f : A -> prog unit) l : (forall a, In a l -> only P (f a)) -> only P (each f l).
Proof.
  induction l as [|a l IH]; intros H; [exact I|]. cbn [each]. apply only_then; [apply H; now left|]. intros _. apply IH. intros b Ib. apply H. now right.
Qed.
Lemma only_collect {A B} P (f : A -> prog B) l : (forall a, In a l -> only P (f a)) -> only P (collect f l).
Proof.
  induction l as [|a l IH]; intros H; [exact I|]. cbn [collect]. apply only_then; [apply H; now left|]. intros b.
  apply only_then; [apply IH; intros c Ic; apply H; now right|]. intros bs. exact I.
Qed.

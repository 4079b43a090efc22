(** Split reduction of the experiment (proofs). *)
From Coq Require Import Sorted.
From Verif Require Import Base Lp TreeModel ExpModel SpecTree SpecExp TreePathProofs TreeLpBuild TreeBuildProofs TreeInvProofs.
Open Scope nat_scope.

Definition geq (a b : nat * nat) : Prop := beats a b \/ a = b.
Lemma pair_geb_iff a b : pair_geb a b = true <-> geq a b.
Proof.
  destruct a as [c k], b as [c' k']. unfold pair_geb, geq, beats. cbn [fst snd].
  rewrite orb_true_iff, andb_true_iff, Nat.ltb_lt, Nat.eqb_eq, Nat.leb_le. split.
  - intros [H|[-> H]]; [lia|]. destruct (Nat.eq_dec k k') as [->|]; [auto|left; right; split; [auto|lia]].
  - intros [[H|[H1 H2]]|E]; [lia|right; lia|]. injection E as -> ->. right. lia.
Qed.
Lemma geq_trans a b c : geq a b -> geq b c -> geq a c.
Proof.
  destruct a, b, c. unfold geq, beats. cbn [fst snd]. intros [[H|[H1 H2]]|E] [[K|[K1 K2]]|F]; try (injection E as -> ->); try (injection F as -> ->); auto;
    left; lia.
Qed.
Lemma geq_total a b : pair_geb a b = false -> geq b a.
Proof.
  destruct a as [c k], b as [c' k']. unfold pair_geb, geq, beats. cbn [fst snd]. rewrite orb_false_iff, andb_false_iff, Nat.ltb_ge, Nat.eqb_neq, Nat.leb_gt.
  intros [H [H'|H']]; left; lia.
Qed.

Lemma insert_perm a l : Permutation (insert_desc a l) (a :: l).
Proof.
  induction l as [|b l IH]; cbn [insert_desc]; [reflexivity|]. destruct (pair_geb a b); [reflexivity|]. rewrite IH. constructor.
Qed.
Lemma insert_sorted a l : StronglySorted geq l -> StronglySorted geq (insert_desc a l).
Proof.
  induction 1 as [|b l S IH F]; cbn [insert_desc]; [repeat constructor|].
  destruct (pair_geb a b) eqn:E.
  - constructor; [constructor; auto|]. apply pair_geb_iff in E. constructor; auto. eapply Forall_impl; [|exact F]. intros c. apply geq_trans. auto.
  - constructor; auto. apply Forall_forall. intros c Hc. apply (Permutation_in _ (insert_perm a l)) in Hc. destruct Hc as [<-|Hc].
    + apply geq_total. auto.
    + rewrite Forall_forall in F. auto.
Qed.
Lemma sort_perm l : Permutation (sort_desc l) l.
Proof. induction l as [|a l IH]; cbn; [reflexivity|]. rewrite insert_perm. constructor. auto. Qed.
Lemma sort_sorted l : StronglySorted geq (sort_desc l).
Proof. induction l as [|a l IH]; cbn; [constructor|]. apply insert_sorted. auto. Qed.

Lemma sorted_strict l : NoDup l -> StronglySorted geq l -> StronglySorted beats l.
Proof.
  intros N S. induction S as [|a l S IH F]; [constructor|]. inversion N; subst. constructor; auto.
  rewrite Forall_forall in *. intros b Hb. destruct (F b Hb) as [|<-]; auto. contradiction.
Qed.
Lemma sorted_app {A} (R : A -> A -> Prop) l m : StronglySorted R (l ++ m) ->
  StronglySorted R l /\ (forall a b, In a l -> In b m -> R a b).
Proof.
  induction l as [|a l IH]; cbn [app]; intros S; [split; [constructor|intros a b []]|].
  inversion S as [|? ? S' F]; subst. destruct (IH S') as [I1 I2]. rewrite Forall_forall in F. split.
  - constructor; auto. apply Forall_forall. intros b Hb. apply F. apply in_or_app. auto.
  - intros x b [<-|Hx] Hb; auto. apply F. apply in_or_app. auto.
Qed.

Lemma combine_NoDup_r {A B} (l : list A) (m : list B) : NoDup m -> NoDup (combine l m).
Proof.
  revert m. induction l as [|a l IH]; intros [|b m] N; cbn; try constructor; inversion N; subst; auto.
  intros H. apply in_combine_r in H. contradiction.
Qed.

Lemma combine_In_snd_ex {A B} : forall (l : list A) (m : list B) b, length l = length m -> In b m -> exists a, In (a, b) (combine l m).
Proof.
  induction l as [|a l IH]; intros [|b m] x L H; try discriminate; cbn in *; [contradiction|]. destruct H as [->|H]; [eauto|].
  destruct (IH m x ltac:(lia) H) as (c & Hc). eauto.
Qed.

Lemma reduce_node_spec q_root q_node nd : counts_ok nd -> en_cands nd <> [] ->
  exists nd', reduce_node q_root q_node nd = Ok nd' /\ keeps_best (if en_id nd =? 0 then q_root else q_node) nd nd'.
Proof.
  intros [L N] Hne. unfold reduce_node. set (q := if en_id nd =? 0 then q_root else q_node).
  set (l := sort_desc (combine (en_counts nd) (en_cands nd))).
  assert (P : Permutation l (counted_cands nd)) by apply sort_perm.
  assert (Ll : length l = length (en_cands nd)) by (rewrite (Permutation_length P); unfold counted_cands; rewrite combine_length; lia).
  assert (Nl : NoDup l) by (eapply Permutation_NoDup; [symmetry; exact P|]; apply combine_NoDup_r; auto).
  assert (S : StronglySorted beats l) by (apply sorted_strict; auto; apply sort_sorted).
  assert (Hl : exists a l', l = a :: l') by (destruct l; [destruct (en_cands nd); [congruence|discriminate]|eauto]).
  destruct Hl as (a & l' & El). rewrite El. rewrite <- El. eexists. split; [reflexivity|].
  assert (Ec : counted_cands (mkEn (en_id nd) (firstn q (map snd l)) (firstn q (map fst l)) (en_last nd)) = firstn q l).
  { unfold counted_cands. cbn [en_counts en_cands]. rewrite <- combine_firstn. f_equal. clear. generalize l. induction l0 as [|[a b] l0 IH]; cbn; congruence. }
  rewrite <- (firstn_skipn q l) in S. apply sorted_app in S. destruct S as [S1 S2].
  constructor; try reflexivity.
  - cbn [en_cands]. rewrite firstn_length, map_length. lia.
  - cbn [en_cands en_counts]. rewrite !firstn_length, !map_length. reflexivity.
  - rewrite Ec. intros x Hx. apply (Permutation_in _ P). rewrite <- (firstn_skipn q l). apply in_or_app. auto.
  - rewrite Ec. auto.
  - rewrite Ec. intros x b Hx Hb Hnb. apply S2; auto. apply (Permutation_in _ (Permutation_sym P)) in Hb. rewrite <- (firstn_skipn q l) in Hb.
    apply in_app_iff in Hb. tauto.
Qed.

Lemma keeps_best_counts q nd nd' : counts_ok nd -> keeps_best q nd nd' -> counts_ok nd' /\ incl (en_cands nd') (en_cands nd).
Proof.
  intros [L N] K. destruct K as [_ _ _ Kc Ko Ks _].
  assert (I : incl (en_cands nd') (en_cands nd)).
  { intros k Hk. destruct (In_nth_error _ _ Hk) as (i & Hi). assert (Hl : i < length (en_counts nd')) by (rewrite Kc; apply nth_error_Some; congruence).
    destruct (nth_error (en_counts nd') i) as [c|] eqn:Ei; [|apply nth_error_None in Ei; lia].
    assert (H : In (c, k) (counted_cands nd')).
    { unfold counted_cands. clear - Hi Ei. revert i Hi Ei. generalize (en_cands nd') as m, (en_counts nd') as l. induction m as [|b m IH]; intros [|a l] [|i] H1 H2; try discriminate; cbn in *.
      - left. congruence.
      - right. eapply IH; eauto. }
    apply Ko in H. apply in_combine_r in H. auto. }
  split; auto. split; auto.
  (* two positions with the same id have different counts, both of which the old list pairs with it *)
  assert (U : forall c c' k, In (c, k) (counted_cands nd) -> In (c', k) (counted_cands nd) -> c = c').
  { unfold counted_cands. clear - N. revert N. generalize (en_cands nd) as m, (en_counts nd) as l. induction m as [|b m IH]; intros [|a l] N c c' k; cbn; try tauto.
    inversion N as [|? ? N1 N2]; subst. intros [E|E] [F|F].
    - congruence.
    - injection E as <- <-. apply in_combine_r in F. contradiction.
    - injection F as <- <-. apply in_combine_r in E. contradiction.
    - eapply IH; eauto. }
  assert (W : forall l m, length l = length m -> StronglySorted beats (combine l m) -> (forall a, In a (combine l m) -> In a (counted_cands nd)) -> NoDup m).
  { induction l as [|a l IH]; intros [|b m] Hl S Hin; try discriminate; [constructor|]. cbn [combine] in *. injection Hl as Hl. inversion S as [|? ? S' F]; subst.
    constructor; [|apply (IH m); auto; intros x Hx; apply Hin; right; auto].
    intros Hb. destruct (combine_In_snd_ex l m b Hl Hb) as (c & Hc).
    rewrite Forall_forall in F. pose proof (F _ Hc) as Hbt. assert (a = c) by (apply (U a c b); apply Hin; [left; auto|right; auto]). subst.
    unfold beats in Hbt. cbn in Hbt. lia. }
  apply (W (en_counts nd') (en_cands nd')); auto.
Qed.

Lemma reduce_splits_spec nodes splits q_root q_node : Forall (fun nd => counts_ok nd /\ en_cands nd <> []) nodes ->
  exists nodes' splits', reduce_splits nodes splits q_root q_node = Ok (nodes', splits') /\
    Forall2 (fun nd nd' => keeps_best (if en_id nd =? 0 then q_root else q_node) nd nd') nodes nodes' /\
    splits' = map (fun s => set_removed (negb (memb (s_id s) (flat_map en_cands nodes'))) s) splits.
Proof.
  intros F. unfold reduce_splits.
  destruct (map_res_Forall2 (reduce_node q_root q_node) (fun nd nd' => keeps_best (if en_id nd =? 0 then q_root else q_node) nd nd') nodes) as (nodes' & E & H).
  { intros nd Hnd. rewrite Forall_forall in F. destruct (F nd Hnd). apply reduce_node_spec; auto. }
  rewrite E. cbn [bind]. eauto 6.
Qed.
Lemma reduce_splits_empty nodes splits q_root q_node nd : In nd nodes -> en_cands nd = [] ->
  reduce_splits nodes splits q_root q_node = Err ValueError.
Proof.
  intros H He. unfold reduce_splits.
  assert (E : map_res (reduce_node q_root q_node) nodes = Err ValueError).
  { induction nodes as [|n l IH]; [contradiction|]. cbn [map_res].
    assert (B : reduce_node q_root q_node n = Err ValueError \/ exists r, reduce_node q_root q_node n = Ok r).
    { unfold reduce_node. destruct (sort_desc _); eauto. }
    destruct H as [->|H].
    - unfold reduce_node. rewrite He. rewrite combine_nil. reflexivity.
    - destruct B as [->|(r & ->)]; cbn [bind]; auto. rewrite IH; auto. }
  rewrite E. reflexivity.
Qed.

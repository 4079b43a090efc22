(** Only finitely many paths can be attractive: every attractive path costs more than the paths with the same choices that are
    already there. *)
From Coq Require Import Qround.
From Verif Require Import Base Lp TreeModel SpecTree SpecTreeRun SpecTreeLp SpecTreePrice SpecTreeMip SpecTreeTrain TreePathProofs TreeLpProofs TreePriceProofs TreeSolProofs
  TreeLpBuild TreeFormProofs TreeMasterProofs TreeHeurProofs TreeFedProofs PropTreePrice.
Open Scope nat_scope.

(** ** The choices of a path, in a fixed order *)
Definition ids (d l : nat) : list nat := l_left (create_leaf l d) ++ l_right (create_leaf l d).
Definition pick_of (p : path) (n : nat) : nat := match find (fun nk => fst nk =? n) (choices p) with Some nk => snd nk | None => 0 end.
Definition ckey (d : nat) (p : path) : nat * list nat := (p_leaf p, map (pick_of p) (ids d (p_leaf p))).

Lemma pick_of_in d splits p n k : tree_path d splits p -> In (n, k) (choices p) -> pick_of p n = k.
Proof.
  intros Hp Hin. unfold pick_of. destruct (find _ _) as [[n' k']|] eqn:E.
  - apply find_some in E. destruct E as [E1 E2]. cbn in *. apply Nat.eqb_eq in E2. subst n'.
    eapply combine_functional; [eapply tree_path_NoDup; eauto|exact E1|exact Hin].
  - eapply find_none in E; [|exact Hin]. cbn in E. rewrite Nat.eqb_refl in E. discriminate.
Qed.
Lemma pick_of_has d splits p n : tree_path d splits p -> In n (ids d (p_leaf p)) -> In (n, pick_of p n) (choices p).
Proof.
  intros Hp Hn. pose proof Hp as (_ & Pm & _). destruct (tree_path_lengths d splits p Hp) as [H1 H2].
  assert (Hin : In n (p_nodes p)) by (eapply Permutation_in; [apply Permutation_sym; exact Pm|exact Hn]).
  destruct (combine_In_fst (p_nodes p) (p_splits p) n) as [k Hk]; [congruence|auto|].
  rewrite (pick_of_in d splits p n k Hp Hk). exact Hk.
Qed.
Lemma key_choices d splits p q nk : tree_path d splits p -> tree_path d splits q -> ckey d p = ckey d q -> In nk (choices p) -> In nk (choices q).
Proof.
  intros Hp Hq HK Hin. destruct nk as [n k]. unfold ckey in HK. injection HK as HL HM. rewrite HL in HM.
  pose proof Hp as (_ & Pm & _). assert (Hn : In n (ids d (p_leaf p))) by (eapply Permutation_in; [exact Pm|eapply in_combine_l; exact Hin]).
  rewrite HL in Hn. assert (E : pick_of p n = pick_of q n).
  { clear - HM Hn. induction (ids d (p_leaf q)) as [|a l IH]; [destruct Hn|]. cbn in HM. injection HM as H1 H2. destruct Hn as [<-|Hn]; auto. }
  rewrite (pick_of_in d splits p n k Hp Hin) in E. subst k. apply (pick_of_has d splits); auto.
Qed.
Lemma follows_choices lf L p q : (forall nk, In nk (choices p) <-> In nk (choices q)) -> follows lf L p -> follows lf L q.
Proof. intros H F n k Hin. apply F, H. exact Hin. Qed.
Lemma covers_choices X leaves splits c p q : p_leaf p = p_leaf q -> (forall nk, In nk (choices p) <-> In nk (choices q)) ->
  covers X leaves splits c p -> covers X leaves splits c q.
Proof.
  intros HL HC. destruct c as [l|r|z|l n k]; cbn.
  - congruence.
  - intros (x & lf & H1 & H2 & H3). exists x, lf. rewrite <- HL. split; auto. split; auto. eapply follows_choices; eauto.
  - intros (lf & H2 & H3). exists lf. rewrite <- HL. split; auto. eapply follows_choices; eauto.
  - intros [H1 H2]. rewrite <- HL. split; auto. apply HC. auto.
Qed.
Lemma price_choices u kinds pi p q v : p_leaf p = p_leaf q -> (forall nk, In nk (choices p) <-> In nk (choices q)) ->
  path_price u kinds pi p v -> path_price u kinds pi q (v - p_cost p + p_cost q)%Q.
Proof.
  intros HL HC (cs & N & H & Hv). exists cs. split; auto. split; [|rewrite Hv; ring].
  intros i. rewrite H. split; intros (c & H1 & H2); exists c; (split; [exact H1|]).
  - eapply covers_choices; [exact HL|exact HC|exact H2].
  - eapply covers_choices; [symmetry; exact HL|intros nk; symmetry; apply HC|exact H2].
Qed.

(** ** Buckets *)
Definition bucket (d : nat) (p : path) : nat * list nat * Z := (ckey d p, Qfloor (p_cost p)).
Definition bucket_dec (a b : nat * list nat * Z) : {a = b} + {a <> b}.
Proof. decide equality; [apply Z.eq_dec|]. decide equality; [apply (list_eq_dec Nat.eq_dec)|apply Nat.eq_dec]. Defined.
Fixpoint all_lists (n k : nat) : list (list nat) :=
  match k with O => [[]] | S k' => flat_map (fun a => map (cons a) (all_lists n k')) (seq 0 n) end.
Lemma all_lists_In n k l : length l = k -> Forall (fun a => a < n) l -> In l (all_lists n k).
Proof.
  revert l. induction k as [|k IH]; intros [|a l] HL HF; try discriminate; cbn; auto.
  inversion HF; subst. apply in_flat_map. exists a. split; [apply in_seq; lia|]. apply in_map. apply IH; auto.
Qed.
Definition all_buckets (d n W : nat) : list (nat * list nat * Z) :=
  list_prod (list_prod (seq 0 (2 ^ d)) (all_lists n d)) (map Z.of_nat (seq 0 (W + 1))).

Lemma floor_range (q : Q) k W : (q == inject_Z (Z.of_nat k))%Q -> k <= W -> In (Qfloor q) (map Z.of_nat (seq 0 (W + 1))).
Proof. intros -> H. rewrite Qfloor_Z. apply in_map, in_seq. lia. Qed.
Lemma floor_differ (a b : Q) k : (a == inject_Z (Z.of_nat k))%Q -> (b < a)%Q -> Qfloor a <> Qfloor b.
Proof.
  intros E H. rewrite E, Qfloor_Z. intros Ef. pose proof (Qfloor_le b) as Hb. rewrite <- Ef, <- E in Hb. lra.
Qed.

Lemma bucket_in d splits p k W : tree_path d splits p -> (p_cost p == inject_Z (Z.of_nat k))%Q -> k <= W ->
  In (bucket d p) (all_buckets d (length splits) W).
Proof.
  intros Hp H0 HW. unfold bucket, all_buckets, ckey. apply in_prod; [|apply (floor_range _ k); auto]. pose proof Hp as (Hl & Pm & HL & HF).
  destruct (tree_path_lengths d splits p Hp) as [H1 H2].
  apply in_prod; [apply in_seq; lia|]. apply all_lists_In.
  - rewrite map_length. unfold ids. rewrite <- (Permutation_length Pm). auto.
  - apply Forall_forall. intros s Hs. apply in_map_iff in Hs. destruct Hs as (n & <- & Hn). pose proof (pick_of_has d splits p n Hp Hn) as Hin.
    rewrite Forall_forall in HF. apply HF. eapply in_combine_r; exact Hin.
Qed.

Definition occupied (d : nat) (paths : list path) (b : nat * list nat * Z) : bool := if in_dec bucket_dec b (map (bucket d) paths) then true else false.
Definition free (d n W : nat) (paths : list path) : nat := length (filter (fun b => negb (occupied d paths b)) (all_buckets d n W)).
Lemma occupied_iff d paths b : occupied d paths b = true <-> In b (map (bucket d) paths).
Proof. unfold occupied. destruct (in_dec _ _ _); intuition; discriminate. Qed.
Lemma filter_less {A} (f g : A -> bool) l : (forall a, In a l -> g a = true -> f a = true) -> length (filter g l) <= length (filter f l).
Proof.
  intros H. induction l as [|a l IH]; cbn; auto. specialize (IH (fun b Hb => H b (or_intror Hb))).
  pose proof (H a (or_introl eq_refl)) as Ha. destruct (g a); [rewrite Ha by auto; cbn; lia|]. destruct (f a); cbn; lia.
Qed.
Lemma filter_strict {A} (f g : A -> bool) l a0 : (forall a, In a l -> g a = true -> f a = true) -> In a0 l -> f a0 = true -> g a0 = false ->
  length (filter g l) < length (filter f l).
Proof.
  intros H Hin Hf Hg. induction l as [|a l IH]; [destruct Hin|]. cbn. assert (H' : forall b, In b l -> g b = true -> f b = true) by (intros; apply H; cbn; auto).
  pose proof (filter_less f g l H') as Hl. pose proof (H a (or_introl eq_refl)) as Ha. destruct Hin as [->|Hin].
  - rewrite Hf, Hg. cbn. lia.
  - specialize (IH H' Hin). destruct (g a); [rewrite Ha by auto; cbn; lia|]. destruct (f a); cbn; lia.
Qed.
Lemma free_more d n W paths more : free d n W (paths ++ more) <= free d n W paths.
Proof.
  apply filter_less. intros b _ H. apply negb_true_iff in H. apply negb_true_iff. destruct (occupied d paths b) eqn:E; auto.
  apply occupied_iff in E. assert (occupied d (paths ++ more) b = true) by (apply occupied_iff; rewrite map_app; apply in_or_app; auto). congruence.
Qed.
Lemma free_new d n W paths p : In (bucket d p) (all_buckets d n W) -> ~ In (bucket d p) (map (bucket d) paths) ->
  free d n W (paths ++ [p]) < free d n W paths.
Proof.
  intros Hin Hn. apply filter_strict with (a0 := bucket d p); auto.
  - intros b _ H. apply negb_true_iff in H. apply negb_true_iff. destruct (occupied d paths b) eqn:E; auto.
    apply occupied_iff in E. assert (occupied d (paths ++ [p]) b = true) by (apply occupied_iff; rewrite map_app; apply in_or_app; auto). congruence.
  - apply negb_true_iff. destruct (occupied d paths (bucket d p)) eqn:E; auto. apply occupied_iff in E. contradiction.
  - apply negb_false_iff. apply occupied_iff. rewrite map_app. apply in_or_app. cbn. auto.
Qed.
Lemma free_bound d n W paths : free d n W paths <= length (all_buckets d n W).
Proof. unfold free. induction (all_buckets d n W) as [|b l IH]; cbn; auto. destruct (negb _); cbn; lia. Qed.

(** ** Weights *)
Lemma nsum_incl (f : nat -> nat) l m : NoDup l -> incl l m -> nsum f l <= nsum f m.
Proof.
  revert m. induction l as [|a l IH]; intros m ND HI; [cbn; lia|]. inversion ND; subst.
  assert (Ha : In a m) by (apply HI; cbn; auto). apply in_split in Ha. destruct Ha as (m1 & m2 & ->).
  assert (Hl : incl l (m1 ++ m2)).
  { intros b Hb. specialize (HI b (or_intror Hb)). apply in_app_iff in HI. apply in_app_iff. destruct HI as [?|[->|?]]; auto. contradiction. }
  specialize (IH _ H2 Hl). rewrite nsum_app in IH. rewrite nsum_app. change (nsum f (a :: l)) with (f a + nsum f l). change (nsum f (a :: m2)) with (f a + nsum f m2). lia.
Qed.
Lemma nsum_mono f g (l : list nat) : (forall a, f a <= g a) -> nsum f l <= nsum g l.
Proof. intros H. induction l as [|a l IH]; [cbn; auto|]. change (f a + nsum f l <= g a + nsum g l). specialize (H a). lia. Qed.
Lemma length_nsum (l : list nat) : length l = nsum (fun _ => 1) l.
Proof. induction l; cbn; auto. Qed.
Lemma class_weight_bound u p t v : valid_data u -> class_weight u p t v -> v <= total_weight u.
Proof.
  intros [HL _] (rs & N & -> & H). unfold total_weight. etransitivity; [|apply nsum_incl with (l := rs); auto].
  - apply nsum_mono. intros. lia.
  - intros r Hr. apply H in Hr. destruct Hr as (Hr & _). apply in_seq. split; [lia|]. rewrite <- HL. apply nth_error_Some; congruence.
Qed.
Lemma class_count_bound u p t v : valid_data u -> class_count u p t v -> v <= total_weight u.
Proof.
  intros [HL _] (rs & N & -> & H). rewrite length_nsum. unfold total_weight. etransitivity; [|apply nsum_incl with (l := rs); auto].
  - apply nsum_mono. intros. lia.
  - intros r Hr. apply H in Hr. destruct Hr as (Hr & _). apply in_seq. split; [lia|]. rewrite <- HL. apply nth_error_Some; congruence.
Qed.

Lemma all_lists_length n k : length (all_lists n k) = n ^ k.
Proof.
  induction k as [|k IH]; [reflexivity|]. cbn [all_lists Nat.pow]. assert (G : forall l, length (flat_map (fun a => map (cons a) (all_lists n k)) l) = length l * n ^ k).
  { induction l as [|a l IHl]; cbn; auto. rewrite app_length, map_length, IHl, IH. reflexivity. }
  rewrite G, seq_length. reflexivity.
Qed.
Lemma all_buckets_length d n W : length (all_buckets d n W) = 2 ^ d * n ^ d * (W + 1).
Proof. unfold all_buckets. rewrite !prod_length, !map_length, !seq_length, all_lists_length. reflexivity. Qed.

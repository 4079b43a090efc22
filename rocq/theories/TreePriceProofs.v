(** The reduced cost according to the reported duals is the reduced cost in the master problem. *)
From Verif Require Import Base Lp LpProofs TreeModel SpecTree SpecTreeRun SpecTreeLp SpecTreePrice TreeGeoProofs TreePathProofs
  TreeLpBuild TreeInvProofs TreeFormProofs TreeMasterProofs TreeSolProofs.
Open Scope nat_scope.

Lemma NoDup_app_intro {A} (l m : list A) : NoDup l -> NoDup m -> (forall a, In a l -> In a m -> False) -> NoDup (l ++ m).
Proof.
  induction l as [|a l IH]; simpl; auto. intros H1 H2 H3. inversion H1; subst. constructor.
  - rewrite in_app_iff. intros [H|H]; eauto.
  - apply IH; auto. intros b Hb Hm. apply (H3 b); auto.
Qed.

Lemma same_members_sum (pi : nat -> Q) l m : NoDup l -> NoDup m -> (forall i, In i l <-> In i m) -> (qsum pi l == qsum pi m)%Q.
Proof. intros H1 H2 H. apply qsum_perm, NoDup_Permutation; auto. Qed.

Lemma path_price_unique u kinds pi p v v' : path_price u kinds pi p v -> path_price u kinds pi p v' -> (v == v')%Q.
Proof.
  intros (cs & N & I & E) (cs' & N' & I' & E'). rewrite E, E'. rewrite (same_members_sum pi cs cs'); auto; [reflexivity|].
  intros i. rewrite I, I'. reflexivity.
Qed.

Lemma reported_price_unique u cuts dl p v v' : reported_price u cuts dl p v -> reported_price u cuts dl p v' -> (v == v')%Q.
Proof.
  intros (rs & cs & N1 & I1 & N2 & I2 & E) (rs' & cs' & N1' & I1' & N2' & I2' & E'). rewrite E, E'.
  rewrite (same_members_sum _ rs rs'), (same_members_sum _ cs cs'); auto; [reflexivity| |]; intros i; rewrite ?I1, ?I1', ?I2, ?I2'; reflexivity.
Qed.

Lemma ckind_eq_dec (a b : ckind) : {a = b} + {a <> b}.
Proof. decide equality; try apply Nat.eq_dec. apply list_eq_dec, Bool.bool_dec. Defined.

(** The position of a constraint. *)
Fixpoint pos_of (c : ckind) (kinds : list ckind) : option nat :=
  match kinds with
  | [] => None
  | k :: ks => if ckind_eq_dec k c then Some 0 else match pos_of c ks with Some i => Some (S i) | None => None end
  end.
Lemma pos_of_some c kinds i : pos_of c kinds = Some i -> nth_error kinds i = Some c.
Proof.
  revert i. induction kinds as [|k ks IH]; intros i; simpl; [discriminate|]. destruct (ckind_eq_dec k c) as [->|].
  - intros E. injection E as <-. reflexivity.
  - destruct (pos_of c ks) as [j|]; [|discriminate]. intros E. injection E as <-. apply IH. auto.
Qed.
Lemma pos_of_none c kinds : pos_of c kinds = None -> ~ In c kinds.
Proof.
  induction kinds as [|k ks IH]; simpl; [auto|]. destruct (ckind_eq_dec k c) as [->|Hne]; [discriminate|].
  destruct (pos_of c ks); [discriminate|]. intros _ [H|H]; auto. apply IH in H; auto.
Qed.

Section Family.
Context {A : Type}.
Variables (kinds : list ckind) (pi : nat -> Q) (mk : A -> ckind) (l : list A) (dual : A -> Q).
Hypothesis Hn : NoDup l.
Hypothesis Hinj : forall a b, mk a = mk b -> a = b.
Hypothesis Honce : forall a i j, nth_error kinds i = Some (mk a) -> nth_error kinds j = Some (mk a) -> i = j.
Hypothesis Hdual : forall a i, In a l -> nth_error kinds i = Some (mk a) -> (dual a == pi i)%Q.
Hypothesis Hdual0 : forall a, In a l -> ~ In (mk a) kinds -> (dual a == 0)%Q.
Lemma family : exists L, NoDup L /\ (forall i, In i L <-> exists a, In a l /\ nth_error kinds i = Some (mk a)) /\
  (qsum pi L == qsum dual l)%Q.
Proof.
  clear - Hn Hinj Honce Hdual Hdual0. induction l as [|a m IH].
  - exists []. split; [constructor|]. split; [|reflexivity]. intros i. split; [intros []|]. intros (a & [] & _).
  - inversion Hn as [|? ? Hni Hn']; subst. destruct IH as (L & H1 & H2 & H3); auto.
    { intros b i Hb. apply Hdual. simpl; auto. } { intros b Hb. apply Hdual0. simpl; auto. }
    destruct (pos_of (mk a) kinds) as [i|] eqn:E.
    + apply pos_of_some in E. exists (i :: L). split; [|split].
      * constructor; auto. intros Hin. apply H2 in Hin. destruct Hin as (b & Hb & Eb). rewrite E in Eb. injection Eb as Eb.
        apply Hinj in Eb. subst. auto.
      * intros j. simpl. rewrite H2. split.
        -- intros [<-|(b & Hb & Eb)]; eauto.
        -- intros (b & [<-|Hb] & Eb); [left; eapply Honce; eauto|eauto].
      * rewrite !qsum_cons, H3. rewrite (Hdual a i); simpl; auto. reflexivity.
    + apply pos_of_none in E. exists L. split; auto. split.
      * intros j. rewrite H2. split; intros (b & Hb & Eb).
        -- exists b. simpl. auto.
        -- destruct Hb as [<-|Hb]; [|eauto]. exfalso. apply E. eapply nth_error_In; eauto.
      * rewrite qsum_cons, H3, (Hdual0 a); simpl; auto. lra.
Qed.
End Family.

Section Price.
Variable u : setup.
Variables (rws : list nat) (cuts : list (list bool)) (kinds : list ckind) (cv : nat -> nat -> nat) (s : tmaster)
  (pos : list nat) (pi : nat -> Q) (dl : tduals).
Hypothesis wf : wf_tree (su_depth u) (su_X u) (su_nodes u) (su_splits u).
Hypothesis F : formulated u rws cuts kinds cv s.
Hypothesis R : reports (2 ^ su_depth u) (length (su_X u)) kinds cuts pos pi dl.

Lemma path_choice_nodup p : tree_path (su_depth u) (su_splits u) p -> NoDup (choices p).
Proof. intros H. apply combine_NoDup_l. eapply tree_path_NoDup; eauto. Qed.

Lemma path_choice_kind p n k : tree_path (su_depth u) (su_splits u) p -> uses_candidates (su_nodes u) p -> In (n, k) (choices p) ->
  In (KChoice (p_leaf p) n k) kinds.
Proof.
  intros Hp Hc Hin. apply (fm_choices _ _ _ _ _ _ _ _ _ _ F). destruct (Hc n k Hin) as (nd & Hnd & Hk).
  exists (create_leaf (p_leaf p) (su_depth u)), nd. destruct Hp as (Hl & Hperm & _). split; [apply complete_leaves_nth; auto|]. split; [|auto].
  apply (Permutation_in _ Hperm). unfold choices in Hin. eapply in_combine_l; eauto.
Qed.

Lemma choice_reported p nk : tree_path (su_depth u) (su_splits u) p -> uses_candidates (su_nodes u) p -> In nk (choices p) ->
  exists i, nth_error kinds i = Some (KChoice (p_leaf p) (fst nk) (snd nk)) /\
            assoc key3_eqb (d_ns dl) (p_leaf p, fst nk, snd nk) = Some (pi i).
Proof.
  intros Hp Hc Hin. destruct nk as [n k]. pose proof (path_choice_kind p n k Hp Hc Hin) as Hk. apply In_nth_error in Hk. destruct Hk as [i Hi].
  exists i. split; auto. apply (rp_choice _ _ _ _ _ _ _ R). eauto.
Qed.

Lemma reported_is_price p v : tree_path (su_depth u) (su_splits u) p -> uses_candidates (su_nodes u) p ->
  reported_price u cuts dl p v -> path_price u kinds pi p v.
Proof.
  intros Hp Hc (rs & cs & Nr & Ir & Nc & Ic & E).
  pose proof (fm_once _ _ _ _ _ _ _ _ _ _ F) as Once.
  assert (Hleaf : In (KLeaf (p_leaf p)) kinds).
  { apply (fm_leaves _ _ _ _ _ _ _ _ _ _ F). unfold su_leaves. rewrite complete_leaves_length. apply Hp. }
  apply In_nth_error in Hleaf. destruct Hleaf as [il Hil].
  destruct (family kinds pi KRow rs (fun r => nth r (d_row dl) 0%Q)) as (Lr & NLr & ILr & SLr); auto.
  { intros a b H. congruence. } { intros a i j H1 H2. apply (Once _ i j H1 H2 I). }
  { intros a i _ H. rewrite (nth_error_nth _ _ _ (rp_row _ _ _ _ _ _ _ R a i H)). reflexivity. }
  { intros a Ha H. apply Ir in Ha. cbn [covers] in Ha. destruct Ha as (x & lf & Hx & _).
    rewrite (nth_error_nth _ _ _ (rp_row0 _ _ _ _ _ _ _ R a ltac:(apply nth_error_Some; congruence) H)). reflexivity. }
  destruct (family kinds pi (fun nk => KChoice (p_leaf p) (fst nk) (snd nk)) (choices p) (choice_dual dl (p_leaf p))) as (Lk & NLk & ILk & SLk).
  { apply path_choice_nodup; auto. }
  { intros [a b] [a' b'] H. injection H as -> ->. reflexivity. } { intros a i j H1 H2. apply (Once _ i j H1 H2 I). }
  { intros [n k] i Hin H. unfold choice_dual. cbn [fst snd] in *. rewrite (proj2 (rp_choice _ _ _ _ _ _ _ R (p_leaf p) n k (pi i))); [reflexivity|eauto]. }
  { intros [n k] Hin H. exfalso. apply H. apply path_choice_kind; auto. }
  destruct (rp_pos _ _ _ _ _ _ _ R) as [Np Fp]. pose proof (Forall2_length' _ _ _ Fp) as Lp.
  assert (Hcl : forall c, In c cs -> c < length pos).
  { intros c Hin. apply Ic in Hin. destruct Hin as (z & Hz & _). rewrite Lp. apply nth_error_Some. congruence. }
  set (Lc := map (fun c => nth c pos 0) cs).
  assert (ILc : forall i, In i Lc <-> exists z, nth_error kinds i = Some (KCut z) /\ covers (su_X u) (su_leaves u) (su_splits u) (KCut z) p).
  { intros i. unfold Lc. rewrite in_map_iff. split.
    - intros (c & <- & Hin). pose proof (Hcl c Hin) as Hlt. apply Ic in Hin. destruct Hin as (z & Hz & Hcov). exists z. split; auto.
      destruct (Forall2_nth_r _ _ _ _ _ Fp Hz) as (i & Hi & Hk). rewrite (nth_error_nth _ _ _ Hi). auto.
    - intros (z & Hk & Hcov). pose proof (rp_all_cuts _ _ _ _ _ _ _ R i z Hk) as Hin. apply In_nth_error in Hin. destruct Hin as [c Hcn].
      exists c. split; [apply nth_error_nth; auto|]. apply Ic. destruct (Forall2_nth_l _ _ _ _ _ Fp Hcn) as (z' & Hz' & Hk').
      assert (z' = z) by congruence. subst. eauto. }
  assert (NLc : NoDup Lc).
  { unfold Lc. clear - Nc Np Hcl. induction cs as [|c m IH]; simpl; [constructor|]. inversion Nc; subst. constructor.
    - rewrite in_map_iff. intros (c' & E & Hin). assert (c' = c); [|subst; auto].
      apply (NoDup_nth pos 0); auto; apply Hcl; simpl; auto.
    - apply IH; auto. intros b Hb. apply Hcl. simpl; auto. }
  assert (SLc : (qsum pi Lc == qsum (fun c => nth c (d_cut dl) 0) cs)%Q).
  { unfold Lc. rewrite qsum_map. apply qsum_ext. intros c Hin. rewrite (rp_cuts _ _ _ _ _ _ _ R).
    rewrite (nth_indep (map pi pos) 0%Q (pi 0)) by (rewrite map_length; auto). rewrite (List.map_nth pi pos 0 c). reflexivity. }
  exists (il :: Lr ++ Lc ++ Lk). split; [|split].
  - constructor; [|apply NoDup_app_intro; auto; [apply NoDup_app_intro; auto|]].
    + rewrite !in_app_iff, ILr, ILc, ILk. intros [(a & _ & H)|[(z & H & _)|(a & _ & H)]]; rewrite Hil in H; discriminate.
    + intros i H1 H2. apply ILc in H1. apply ILk in H2. destruct H1 as (z & H1 & _), H2 as (a & _ & H2). congruence.
    + intros i H1 H2. rewrite in_app_iff in H2. apply ILr in H1. destruct H1 as (r & _ & H1).
      destruct H2 as [H2|H2]; [apply ILc in H2; destruct H2 as (z & H2 & _)|apply ILk in H2; destruct H2 as (a & _ & H2)]; congruence.
  - intros i. simpl. rewrite !in_app_iff, ILr, ILc, ILk. split.
    + intros [<-|[(r & Hr & H)|[(z & H & Hcov)|([n k] & Hin & H)]]].
      * exists (KLeaf (p_leaf p)). split; auto. reflexivity.
      * exists (KRow r). split; auto. apply Ir; auto.
      * eauto.
      * exists (KChoice (p_leaf p) n k). split; auto. split; auto.
    + intros (c & Hk & Hcov). destruct c as [l|r|z|l n k].
      * left. cbn [covers] in Hcov. rewrite <- Hcov in Hk. apply (Once _ _ _ Hil Hk I).
      * right. left. exists r. split; auto. apply Ir. auto.
      * right. right. left. eauto.
      * right. right. right. destruct Hcov as [<- Hin]. exists (n, k). auto.
  - rewrite E. rewrite qsum_cons, !qsum_app, SLr, SLc, SLk.
    rewrite (nth_error_nth _ _ _ (rp_leaf _ _ _ _ _ _ _ R _ _ Hil)). lra.
Qed.

Lemma price_is_reported p v : tree_path (su_depth u) (su_splits u) p -> uses_candidates (su_nodes u) p ->
  path_price u kinds pi p v -> reported_price u cuts dl p v.
Proof.
  intros Hp Hc H.
  set (rs := filter (fun r => covb (su_X u) (su_leaves u) (su_splits u) (KRow r) p) (seq 0 (length (su_X u)))).
  set (cs := filter (fun c => match nth_error cuts c with Some z => covb (su_X u) (su_leaves u) (su_splits u) (KCut z) p | None => false end) (seq 0 (length cuts))).
  set (v' := (p_cost p - nth (p_leaf p) (d_leaf dl) 0 - qsum (fun r => nth r (d_row dl) 0) rs - qsum (fun c => nth c (d_cut dl) 0) cs
          - qsum (choice_dual dl (p_leaf p)) (choices p))%Q).
  assert (H' : reported_price u cuts dl p v').
  { exists rs, cs. split; [apply NoDup_filter, seq_NoDup|]. split; [|split; [apply NoDup_filter, seq_NoDup|split; [|reflexivity]]].
    - intros r. unfold rs. rewrite filter_In, in_seq, covb_iff. split; [tauto|]. intros Hcov. split; auto.
      pose proof Hcov as Hcov'. cbn [covers] in Hcov'. destruct Hcov' as (x & lf & Hx & _). assert (r < length (su_X u)) by (apply nth_error_Some; congruence). lia.
    - intros c. unfold cs. rewrite filter_In, in_seq. split.
      + intros [_ Hb]. destruct (nth_error cuts c) as [z|]; [|discriminate]. apply covb_iff in Hb. eauto.
      + intros (z & Hz & Hcov). rewrite Hz, covb_iff. split; auto. assert (c < length cuts) by (apply nth_error_Some; congruence). lia. }
  pose proof (reported_is_price p v' Hp Hc H') as H2. pose proof (path_price_unique _ _ _ _ _ _ H H2) as E.
  destruct H' as (rs' & cs' & H1' & H2' & H3' & H4' & H5'). exists rs', cs'. repeat (split; auto). rewrite E, H5'. reflexivity.
Qed.
End Price.

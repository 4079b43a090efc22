(** Candidates, counts and last splits of the nodes after all CART trees and the reduction (proofs). *)
From Verif Require Import Base Lp LpProofs TreeModel ExpModel SpecTree SpecTreeRun SpecTreeLp SpecExp SpecPrep TreeBuildProofs TreeInvProofs TreePathProofs ExpSplitProofs
  ExpCartProofs ExpReduceProofs PrepMergeProofs TreeLpBuild.
Open Scope nat_scope.

(** Split [k] of the registry makes the test (f, t). *)
Definition makes (d : registry) (k f : nat) (t : Q) : Prop := exists t' s, nth_error d k = Some ((f, t'), s) /\ (t' == t)%Q.
Lemma makes_app d new k f t : makes d k f t -> makes (d ++ new) k f t.
Proof. intros (t' & s & E & H). exists t', s. split; auto. rewrite nth_error_app1; auto. apply nth_error_Some. congruence. Qed.
Lemma makes_lt d k f t : makes d k f t -> k < length d.
Proof. intros (t' & s & E & _). apply nth_error_Some. congruence. Qed.

(** The node at position [h] after the trees [cs]. *)
Record node_seen (cs : list cart) (d : registry) (h : nat) (nd : enode) : Prop := {
  sn_id : en_id nd = h;
  sn_counts : counts_ok nd;
  sn_none : en_last nd = None -> en_cands nd = [];
  sn_last : forall k, en_last nd = Some k -> In k (en_cands nd);
  sn_sound : forall k, In k (en_cands nd) -> exists c f t, In c cs /\ tests_at c h f t /\ makes d k f t;
  sn_all : forall c f t, In c cs -> tests_at c h f t -> exists k, In k (en_cands nd) /\ makes d k f t;
  sn_latest : forall k, en_last nd = Some k -> exists f t, last_test cs h f t /\ makes d k f t
}.
Definition dict_keys (dep : nat) (nodes : ndict) : Prop := map fst nodes = seq 0 (2 ^ dep - 1).

Lemma tests_fun c h f t f' t' : tests_at c h f t -> tests_at c h f' t' -> f = f' /\ t = t'.
Proof.
  intros (i & P & _ & F & T) (i' & P' & _ & F' & T'). rewrite (positioned_inj _ _ _ P _ P') in *. rewrite F in F'. rewrite T in T'.
  injection F' as <-. injection T' as <-. auto.
Qed.

Lemma seen_step count c cs d new h nd nd' : node_seen cs d h nd ->
  ((~ has_test c h /\ nd' = nd) \/
   exists k f t t' s, tests_at c h f t /\ nth_error (d ++ new) k = Some ((f, t'), s) /\ (t' == t)%Q /\ voted count k nd nd') ->
  node_seen (cs ++ [c]) (d ++ new) h nd'.
Proof.
  intros [S1 S2 S3 S4 S5 S6 S7] [[Hno ->]|(k & f & t & t' & s & T & E & Ht & V)].
  - constructor; auto.
    + intros k Hk. destruct (S5 k Hk) as (c0 & f & t & Hc & T & M). exists c0, f, t. split; [apply in_or_app; auto|]. split; auto. apply makes_app; auto.
    + intros c0 f t Hc T. apply in_app_or in Hc. destruct Hc as [Hc|[<-|[]]]; [|exfalso; apply Hno; exists f, t; auto].
      destruct (S6 c0 f t Hc T) as (k & Hk & M). exists k. split; auto. apply makes_app; auto.
    + intros k Ek. destruct (S7 k Ek) as (f & t & (us & c0 & vs & -> & T & Hv) & M). exists f, t. split; [|apply makes_app; auto].
      exists us, c0, (vs ++ [c]). rewrite <- app_assoc. split; auto. split; auto. apply Forall_app. auto.
  - destruct V as [V1 V2 V3 V4 V5 V6]. assert (M0 : makes (d ++ new) k f t) by (exists t', s; auto). constructor; auto.
    + congruence.
    + congruence.
    + intros k' E'. rewrite V2 in E'. injection E' as <-. apply V4. auto.
    + intros k' Hk. apply V4 in Hk. destruct Hk as [->|Hk]; [exists c, f, t; split; [apply in_or_app; right; left; auto|auto]|].
      destruct (S5 k' Hk) as (c0 & f0 & t0 & Hc & T0 & M). exists c0, f0, t0. split; [apply in_or_app; auto|]. split; auto. apply makes_app; auto.
    + intros c0 f0 t0 Hc T0. apply in_app_or in Hc. destruct Hc as [Hc|[<-|[]]].
      * destruct (S6 c0 f0 t0 Hc T0) as (k' & Hk & M). exists k'. split; [apply V4; auto|apply makes_app; auto].
      * destruct (tests_fun _ _ _ _ _ _ T T0) as [<- <-]. exists k. split; [apply V4; auto|auto].
    + intros k' E'. rewrite V2 in E'. injection E' as <-. exists f, t. split; auto. exists cs, c, []. auto.
Qed.

(** * Votes *)
Lemma makes_fun d k f t f' t' : makes d k f t -> makes d k f' t' -> f = f' /\ (t == t')%Q.
Proof. intros (t1 & s1 & E1 & H1) (t2 & s2 & E2 & H2). rewrite E1 in E2. injection E2 as -> -> _. split; auto. rewrite <- H1. auto. Qed.
Lemma makes_inj d i j f t t' : good_registry d -> makes d i f t -> makes d j f t' -> (t == t')%Q -> i = j.
Proof. intros G (t1 & s1 & E1 & H1) (t2 & s2 & E2 & H2) H. eapply (proj2 G); eauto. rewrite H1, H2. auto. Qed.
Lemma votes_snoc cs c h f t n : votes cs h f t n -> ~ (exists t', tests_at c h f t' /\ (t' == t)%Q) -> votes (cs ++ [c]) h f t n.
Proof.
  intros (is & N & L & H) Hno. exists is. split; auto. split; auto. intros i. rewrite H. split; intros (c0 & t' & E & T & Ht).
  - exists c0, t'. split; auto. rewrite nth_error_app1; auto. apply nth_error_Some. congruence.
  - exists c0, t'. split; auto. destruct (Nat.lt_ge_cases i (length cs)) as [Hi|Hi]; [rewrite nth_error_app1 in E; auto|].
    rewrite nth_error_app2 in E by auto. apply nth_error_In in E. destruct E as [<-|[]]. exfalso. apply Hno. eauto.
Qed.
Lemma votes_more cs c h f t n : votes cs h f t n -> (exists t', tests_at c h f t' /\ (t' == t)%Q) -> votes (cs ++ [c]) h f t (n + 1).
Proof.
  intros (is & N & L & H) (t0 & T0 & Ht0). exists (length cs :: is). split; [|split].
  - constructor; auto. intros Hin. apply H in Hin. destruct Hin as (c0 & t' & E & _). assert (length cs < length cs) by (apply nth_error_Some; congruence). lia.
  - cbn [length]. lia.
  - intros i. cbn [In]. rewrite H. split.
    + intros [<-|(c0 & t' & E & T & Ht)].
      * exists c, t0. split; auto. rewrite nth_error_app2, Nat.sub_diag by auto. reflexivity.
      * exists c0, t'. split; auto. rewrite nth_error_app1; auto. apply nth_error_Some. congruence.
    + intros (c0 & t' & E & T & Ht). destruct (Nat.lt_ge_cases i (length cs)) as [Hi|Hi]; [right; exists c0, t'; rewrite nth_error_app1 in E; auto|].
      left. rewrite nth_error_app2 in E by auto. destruct (i - length cs) as [|n'] eqn:En; [lia|]. destruct n'; discriminate.
Qed.
Lemma votes_none cs h f t : (forall c, In c cs -> ~ exists t', tests_at c h f t' /\ (t' == t)%Q) -> votes cs h f t 0.
Proof.
  intros H. exists []. split; [constructor|]. split; auto. intros i. split; [intros []|]. intros (c & t' & E & T). apply (H c); [eapply nth_error_In; eauto|eauto].
Qed.
Lemma votes_unique cs h f t n m : votes cs h f t n -> votes cs h f t m -> n = m.
Proof. intros (a & Na & <- & Ha) (b & Nb & <- & Hb). apply Nat.le_antisymm; apply NoDup_incl_length; auto; intros i Hi; [apply Hb, Ha|apply Ha, Hb]; auto. Qed.
Lemma votes_same cs h f t t' n : (t == t')%Q -> votes cs h f t n -> votes cs h f t' n.
Proof.
  intros E (a & Na & L & Ha). exists a. split; auto. split; auto. intros i. rewrite Ha. split; intros (c & t1 & H1 & H2 & H3); exists c, t1; (split; [auto|split; auto]).
  - rewrite H3. auto.
  - rewrite H3. symmetry. auto.
Qed.
Lemma count_step count c cs d new h nd nd' : good_registry (d ++ new) -> node_seen cs d h nd ->
  (forall q k f t, In (q, k) (counted_cands nd) -> makes d k f t -> votes cs h f t q) ->
  ((~ has_test c h /\ nd' = nd) \/
   exists k f t t' s, tests_at c h f t /\ nth_error (d ++ new) k = Some ((f, t'), s) /\ (t' == t)%Q /\ voted count k nd nd') ->
  forall q k f t, In (q, k) (counted_cands nd') -> makes (d ++ new) k f t -> exists m, votes cs h f t m /\
    (((exists t', tests_at c h f t' /\ (t' == t)%Q) /\ q = m + count) \/ (~ (exists t', tests_at c h f t' /\ (t' == t)%Q) /\ q = m)).
Proof.
  intros G Sn Hq Hv q k f t Hin M.
  assert (Hold : forall q k f t, In (q, k) (counted_cands nd) -> makes (d ++ new) k f t -> votes cs h f t q).
  { intros q' k' f' t' Hin' M'. apply (Hq q' k'); auto. pose proof (in_combine_r _ _ _ _ Hin') as Hk. destruct (sn_sound _ _ _ _ Sn k' Hk) as (_ & f1 & t1 & _ & _ & M1).
    pose proof (makes_lt _ _ _ _ M1) as Hl. destruct M' as (t2 & s2 & E2 & H2). rewrite nth_error_app1 in E2 by auto. exists t2, s2. auto. }
  destruct Hv as [[Hno ->]|(k0 & f0 & t0 & t' & s & T & E & Ht & V)].
  - exists q. split; [eapply Hold; eauto|]. right. split; auto. intros (t1 & T1 & _). apply Hno. exists f, t1. auto.
  - assert (M0 : makes (d ++ new) k0 f0 t0) by (exists t', s; auto). destruct (Nat.eq_dec k k0) as [->|Hne].
    + destruct (makes_fun _ _ _ _ _ _ M0 M) as [<- Htt].
      assert (Hm : exists t', tests_at c h f0 t' /\ (t' == t)%Q) by (exists t0; auto).
      destruct (vo_own _ _ _ _ V q Hin) as (_ & [[-> Hnk]|(q0 & H0 & ->)]).
      * exists 0. split; [|left; auto]. apply votes_none. intros c0 Hc0 (t1 & T1 & Ht1). destruct (sn_all _ _ _ _ Sn c0 f0 t1 Hc0 T1) as (k1 & Hk1 & M1).
        apply Hnk. replace k0 with k1; auto. eapply (makes_inj _ _ _ _ _ _ G); [apply makes_app; exact M1|exact M|auto].
      * exists q0. split; [|left; auto]. eapply Hold; eauto.
    + exists q. split; [eapply Hold; eauto; apply (vo_other _ _ _ _ V _ _ Hin Hne)|]. right. split; auto. intros (t1 & T1 & Ht1).
      destruct (tests_fun _ _ _ _ _ _ T T1) as [<- <-]. apply Hne. eapply (makes_inj _ _ _ _ _ _ G); [exact M|exact M0|]. symmetry. auto.
Qed.

Lemma empty_keys dep : dict_keys dep (empty_nodes dep).
Proof. unfold dict_keys, empty_nodes. rewrite map_map. apply map_id. Qed.
Lemma empty_assoc dep h nd : assoc Nat.eqb (empty_nodes dep) h = Some nd -> nd = mkEn h [] [] None.
Proof.
  intros E. apply assoc_In in E; [|rewrite empty_keys; apply seq_NoDup]. unfold empty_nodes in E. apply in_map_iff in E.
  destruct E as (i & E & _). injection E as -> <-. reflexivity.
Qed.

(** All trees but the last: every count is at most the number of trees. *)
Lemma carts_ok dep : forall cs, Forall cart_ok cs -> exists d nodes, for_each cs (add_cart 1) ([], empty_nodes dep) = Ok (d, nodes) /\
  good_registry d /\ (forall f t, has_key d f t <-> exists c h t', In c cs /\ tests_at c h f t' /\ (t' == t)%Q) /\ dict_keys dep nodes /\
  forall h nd, assoc Nat.eqb nodes h = Some nd -> node_seen cs d h nd /\ (forall q k, In (q, k) (counted_cands nd) -> q <= length cs) /\
    forall q k f t, In (q, k) (counted_cands nd) -> makes d k f t -> votes cs h f t q.
Proof.
  induction cs as [|c cs IH] using rev_ind; intros H.
  - exists [], (empty_nodes dep). split; auto. split; [apply good_nil|]. split.
    { intros f t. split; [intros (t' & s & [] & _)|intros (c & _ & _ & [] & _)]. }
    split; [apply empty_keys|]. intros h nd E. rewrite (empty_assoc _ _ _ E). split.
    + constructor; cbn [en_id en_cands en_last en_counts]; auto; try discriminate; try contradiction.
      * split; [reflexivity|constructor].
    + cbn. split; contradiction.
  - apply Forall_app in H. destruct H as [H1 H2]. inversion H2 as [|? ? Hc _]; subst. destruct (IH H1) as (d & nodes & E & G & K & Kn & A).
    destruct (add_cart_ok 1 c d nodes Hc G) as (d' & nodes' & E' & G' & (new & ->) & K' & Kn' & A').
    { intros h nd Ha. apply (A h nd Ha). }
    exists (d ++ new), nodes'. split; [rewrite for_each_app, E; cbn [bind]; exact (f_equal (fun r => bind r (fun s => Ok s)) E')|]. split; auto. split.
    { intros f t. rewrite K', K. split.
      - intros [(c0 & h & t' & Hin & T)|(h & t' & T)]; [exists c0, h, t'|exists c, h, t']; (split; [apply in_or_app; cbn; auto|auto]).
      - intros (c0 & h & t' & Hin & T). apply in_app_or in Hin. destruct Hin as [Hin|[<-|[]]]; [left; eauto 6|right; eauto]. }
    split; [unfold dict_keys in *; congruence|]. intros h nd' Ha'. destruct (A' h nd' Ha') as (nd & Ha & Hv). destruct (A h nd Ha) as (Sn & Hq & Hw). split; [|split].
    + eapply seen_step; eauto.
    + intros q k Hin. rewrite app_length. cbn [length]. destruct Hv as [[_ ->]|(k0 & f & t & t' & s & _ & _ & _ & V)]; [specialize (Hq q k Hin); lia|].
      destruct (Nat.eq_dec k k0) as [->|Hne].
      * destruct (vo_own _ _ _ _ V q Hin) as (_ & [[-> _]|(q0 & H0 & ->)]); [lia|]. specialize (Hq _ _ H0). lia.
      * specialize (Hq _ _ (vo_other _ _ _ _ V _ _ Hin Hne)). lia.
    + intros q k f t Hin M. destruct (count_step 1 c cs d new h nd nd' G' Sn Hw Hv q k f t Hin M) as (m & Hm & [[Hy ->]|[Hn ->]]); [apply votes_more|apply votes_snoc]; auto.
Qed.

(** The last split of a node in the final tree has more votes than all others. *)
Definition favourite (n : nat) (nd : enode) : Prop :=
  forall q k, In (q, k) (counted_cands nd) -> if match en_last nd with Some k0 => k =? k0 | None => false end then 1000 <= q else q <= n.

Lemma final_ok dep cs final : Forall cart_ok (cs ++ [final]) -> exists sn d nodes, for_each cs (add_cart 1) ([], empty_nodes dep) = Ok sn /\
  add_cart 1000 final sn = Ok (d, nodes) /\ good_registry d /\
  (forall f t, has_key d f t <-> exists c h t', In c (cs ++ [final]) /\ tests_at c h f t' /\ (t' == t)%Q) /\ dict_keys dep nodes /\
  forall h nd, assoc Nat.eqb nodes h = Some nd -> node_seen (cs ++ [final]) d h nd /\ (has_test final h -> favourite (length cs) nd) /\
    (forall q k f t, In (q, k) (counted_cands nd) -> makes d k f t -> support cs final h f t q) /\
    forall f t, tests_at final h f t -> exists k, en_last nd = Some k /\ makes d k f t.
Proof.
  intros H. apply Forall_app in H. destruct H as [H1 H2]. inversion H2 as [|? ? Hc _]; subst.
  destruct (carts_ok dep cs H1) as (d & nodes & E & G & K & Kn & A).
  destruct (add_cart_ok 1000 final d nodes Hc G) as (d' & nodes' & E' & G' & (new & ->) & K' & Kn' & A').
  { intros h nd Ha. apply (A h nd Ha). }
  exists (d, nodes), (d ++ new), nodes'. split; auto. split; auto. split; auto. split.
  { intros f t. rewrite K', K. split.
    - intros [(c0 & h & t' & Hin & T)|(h & t' & T)]; [exists c0, h, t'|exists final, h, t']; (split; [apply in_or_app; cbn; auto|auto]).
    - intros (c0 & h & t' & Hin & T). apply in_app_or in Hin. destruct Hin as [Hin|[<-|[]]]; [left; eauto 6|right; eauto]. }
  split; [unfold dict_keys in *; congruence|]. intros h nd' Ha'. destruct (A' h nd' Ha') as (nd & Ha & Hv). destruct (A h nd Ha) as (Sn & Hq & Hw). split; [|split; [|split]].
  - eapply seen_step; eauto.
  - intros Ht q k Hin. destruct Hv as [[Hno _]|(k0 & f & t & t' & s & _ & _ & _ & V)]; [contradiction|]. rewrite (vo_last _ _ _ _ V).
    destruct (Nat.eqb_spec k k0) as [->|Hne]; [apply (vo_own _ _ _ _ V q Hin)|]. apply (Hq _ k). apply (vo_other _ _ _ _ V _ _ Hin Hne).
  - intros q k f t Hin M. exact (count_step 1000 final cs d new h nd nd' G' Sn Hw Hv q k f t Hin M).
  - intros f t T. destruct Hv as [[Hno _]|(k0 & f0 & t0 & t' & s & T0 & E0 & Ht & V)]; [exfalso; apply Hno; exists f, t; auto|].
    destruct (tests_fun _ _ _ _ _ _ T T0) as [<- <-]. exists k0. split; [apply (vo_last _ _ _ _ V)|exists t', s; auto].
Qed.

(** * Nodes that never appeared *)
Definition filled (nd : enode) : enode :=
  match en_cands nd with [] => mkEn (en_id nd) [0] (en_counts nd ++ [0]) (Some 0) | _ => nd end.
Lemma fill_ok dep nodes : dict_keys dep nodes -> exists nodes', fill_nodes dep nodes = Ok nodes' /\ dict_keys dep nodes' /\
  forall h, assoc Nat.eqb nodes' h = option_map filled (assoc Nat.eqb nodes h).
Proof.
  intros Kn. unfold fill_nodes.
  match goal with |- context [for_each _ ?b _] =>
    destruct (for_each_steps (seq 0 (2 ^ dep - 1)) b (fun u ns => dict_keys dep ns /\
      forall h, assoc Nat.eqb ns h = if memb h u then option_map filled (assoc Nat.eqb nodes h) else assoc Nat.eqb nodes h) nodes) as (nodes' & E & K & A) end.
  - split; auto.
  - intros u i v ns Eu (K & A). assert (Hi : In i (seq 0 (2 ^ dep - 1))) by (rewrite Eu; apply in_or_app; right; left; auto).
    assert (Hu : memb i u = false).
    { apply memb_false. intros H. pose proof (seq_NoDup (2 ^ dep - 1) 0) as N. rewrite Eu in N. apply NoDup_remove_2 in N. apply N. apply in_or_app. auto. }
    assert (Hk : In i (map fst ns)) by (rewrite K; auto). apply assoc_dom in Hk. destruct Hk as (nd & End). unfold lookup. rewrite End. cbn [bind].
    rewrite A, Hu in End. exists (assoc_set Nat.eqb ns i (filled nd)). unfold filled. split; [|split].
    + destruct (en_cands nd) eqn:Ec; auto. f_equal. symmetry.
      assert (E1 : assoc Nat.eqb ns i = Some nd) by (rewrite A, Hu; auto).
      clear -E1. induction ns as [|[k b] ns IH]; cbn [assoc] in E1; [discriminate|]. cbn [assoc_set]. destruct (Nat.eqb_spec k i) as [->|]; [congruence|f_equal; auto].
    + unfold dict_keys. rewrite assoc_set_nth; auto; [apply Nat.eqb_eq|]. rewrite K. auto.
    + intros h. rewrite (assoc_assoc_set Nat.eqb Nat.eqb_eq), A. destruct (Nat.eqb_spec i h) as [<-|Hne].
      * rewrite End. cbn [option_map]. assert (memb i (u ++ [i]) = true) as -> by (apply memb_In, in_or_app; right; left; auto). reflexivity.
      * assert (memb h (u ++ [i]) = memb h u) as ->; auto. apply eq_true_iff_eq. rewrite !memb_In, in_app_iff. cbn [In]. intuition congruence.
  - exists nodes'. split; auto. split; auto. intros h. rewrite A. destruct (memb h (seq 0 (2 ^ dep - 1))) eqn:Em; auto.
    apply memb_false in Em. destruct (assoc Nat.eqb nodes h) eqn:Ea; auto. exfalso. apply Em. rewrite <- Kn. apply assoc_dom. eauto.
Qed.

(** The node at position [h] before the reduction. *)
Record node_full (cs : list cart) (final : cart) (d : registry) (h : nat) (nd : enode) : Prop := {
  nf_id : en_id nd = h;
  nf_counts : counts_ok nd;
  nf_some : en_cands nd <> [];
  nf_last : exists k, en_last nd = Some k /\ In k (en_cands nd);
  nf_range : Forall (fun k => k < length d) (en_cands nd);
  nf_fav : has_test final h -> favourite (length cs) nd;
  nf_sound : (en_cands nd = [0] /\ forall c, In c (cs ++ [final]) -> ~ has_test c h) \/
             forall k, In k (en_cands nd) -> exists c f t, In c (cs ++ [final]) /\ tests_at c h f t /\ makes d k f t;
  nf_latest : has_test final h \/ en_cands nd = [0] \/ exists k f t, en_last nd = Some k /\ last_test cs h f t /\ makes d k f t;
  nf_votes : forall q k f t, In (q, k) (counted_cands nd) -> makes d k f t -> support cs final h f t q;
  nf_all : forall c f t, In c (cs ++ [final]) -> tests_at c h f t -> exists k, In k (en_cands nd) /\ makes d k f t;
  nf_final : forall f t, tests_at final h f t -> exists k, en_last nd = Some k /\ makes d k f t
}.
Lemma all_nodes_ok dep cs final : Forall cart_ok (cs ++ [final]) -> (exists c h, In c (cs ++ [final]) /\ has_test c h) ->
  exists sn d nodes0 nodes, for_each cs (add_cart 1) ([], empty_nodes dep) = Ok sn /\
  add_cart 1000 final sn = Ok (d, nodes0) /\ good_registry d /\
  (forall f t, has_key d f t <-> exists c h t', In c (cs ++ [final]) /\ tests_at c h f t' /\ (t' == t)%Q) /\
  fill_nodes dep nodes0 = Ok nodes /\ dict_keys dep nodes /\
  forall h nd, assoc Nat.eqb nodes h = Some nd -> node_full cs final d h nd.
Proof.
  intros H (c1 & h1 & Hc1 & f1 & t1 & T1). destruct (final_ok dep cs final H) as (sn & d & nodes0 & E1 & E2 & G & K & Kn & A).
  destruct (fill_ok dep nodes0 Kn) as (nodes & E3 & Kn' & A'). exists sn, d, nodes0, nodes. do 6 (split; [auto|]).
  assert (Hd : 0 < length d).
  { destruct (proj2 (K f1 t1)) as (t' & s & Hin & _); [exists c1, h1, t1; split; auto; split; auto; reflexivity|]. destruct d; [contradiction|cbn; lia]. }
  intros h nd' Ha. rewrite A' in Ha. destruct (assoc Nat.eqb nodes0 h) as [nd|] eqn:E0; [|discriminate]. injection Ha as <-.
  destruct (A h nd E0) as ([S1 S2 S3 S4 S5 S6 S7] & F & O & Fi).
  assert (R : Forall (fun k => k < length d) (en_cands nd)).
  { apply Forall_forall. intros k Hk. destruct (S5 k Hk) as (_ & f & t & _ & _ & M). eapply makes_lt; eauto. }
  unfold filled. destruct (en_cands nd) as [|k0 l0] eqn:Ec.
  - destruct S2 as [L _]. rewrite Ec in L. cbn in L. apply length_zero_iff_nil in L. rewrite L. cbn [app].
    assert (Hno : forall c, In c (cs ++ [final]) -> ~ has_test c h).
    { intros c Hc (f & t & T). destruct (S6 c f t Hc T) as (k & [] & _). }
    constructor; cbn [en_id en_cands en_counts en_last]; auto.
    + split; [reflexivity|]. constructor; [intros []|constructor].
    + discriminate.
    + exists 0. split; [auto|left; auto].
    + intros Hf. exfalso. apply (Hno final); auto. apply in_or_app. right. left. auto.
    + intros q k f t [E|[]] _. injection E as <- <-. exists 0. split.
      * apply votes_none. intros c Hc (t' & T & _). apply (Hno c); [apply in_or_app; auto|]. exists f, t'. auto.
      * right. split; auto. intros (t' & T & _). apply (Hno final); [apply in_or_app; right; left; auto|]. exists f, t'. auto.
    + intros c f t Hc T. exfalso. apply (Hno c Hc). exists f, t. auto.
    + intros f t T. exfalso. apply (Hno final); [apply in_or_app; right; left; auto|]. exists f, t. auto.
  - constructor; rewrite ?Ec; auto.
    + discriminate.
    + destruct (en_last nd) as [k|] eqn:El; [|discriminate (S3 eq_refl)]. exists k. auto.
    + destruct (en_last nd) as [k|] eqn:El; [|discriminate (S3 eq_refl)]. destruct (S7 k eq_refl) as (f & t & (us & c & vs & E & T & Hv) & M).
      destruct vs as [|v vs _] using rev_ind.
      * apply app_inj_tail in E. destruct E as [_ <-]. left. exists f, t. auto.
      * rewrite app_comm_cons, app_assoc in E. apply app_inj_tail in E. destruct E as [-> <-]. right. right. exists k, f, t. split; auto. split; auto.
        apply Forall_app in Hv. exists us, c, vs. split; auto. split; auto. apply Hv.
Qed.

(** * The reduction *)
Lemma favourite_kept n q nd nd' : n < 1000 -> 1 <= q -> counts_ok nd -> en_cands nd <> [] -> favourite n nd -> keeps_best q nd nd' ->
  (exists k, en_last nd = Some k /\ In k (en_cands nd)) -> exists k, en_last nd = Some k /\ In k (en_cands nd').
Proof.
  intros Hn Hq C Hne F B (k & El & Hk). exists k. split; auto. destruct C as [L N].
  destruct (combine_In_snd_ex (en_counts nd) (en_cands nd) k L Hk) as (q0 & H0). fold (counted_cands nd) in H0.
  destruct (in_dec Nat.eq_dec k (en_cands nd')) as [Hi|Hi]; auto. exfalso.
  assert (Hl : 0 < length (en_cands nd')) by (rewrite (kb_length _ _ _ B); destruct (en_cands nd); [contradiction|cbn; lia]).
  destruct (en_cands nd') as [|k1 l1] eqn:E1; [cbn in Hl; lia|].
  destruct (combine_In_snd_ex (en_counts nd') (en_cands nd') k1) as (q1 & H1); [rewrite (kb_counts _ _ _ B), E1; auto|rewrite E1; left; auto|]. fold (counted_cands nd') in H1.
  assert (Hni : ~ In (q0, k) (counted_cands nd')) by (intros H; apply Hi; apply in_combine_r in H; rewrite E1 in H; auto).
  pose proof (kb_best _ _ _ B _ _ H1 H0 Hni) as Hb.
  pose proof (F _ _ H0) as F0. rewrite El, Nat.eqb_refl in F0. pose proof (F _ _ (kb_old _ _ _ B _ H1)) as F1. rewrite El in F1.
  destruct (Nat.eqb_spec k1 k) as [->|Hk1]; [apply Hi; left; auto|]. destruct Hb as [Hb|[Hb _]]; cbn [fst snd] in Hb; lia.
Qed.
Lemma all_kept q nd nd' : counts_ok nd -> keeps_best q nd nd' -> length (en_cands nd) <= q -> forall k, In k (en_cands nd) -> In k (en_cands nd').
Proof.
  intros C B Hq. destruct (keeps_best_counts q nd nd' C B) as [[_ N'] I].
  apply NoDup_length_incl; auto. rewrite (kb_length _ _ _ B). lia.
Qed.
(** Candidates for the tests in a list are no more than the list. *)
Lemma few_candidates (d : registry) (ks : list nat) (l : list (nat * Q)) : good_registry d -> NoDup ks ->
  (forall k, In k ks -> exists ft, In ft l /\ makes d k (fst ft) (snd ft)) -> length ks <= length l.
Proof.
  intros G N M.
  assert (F : exists ms, Forall2 (fun k ft => In ft l /\ makes d k (fst ft) (snd ft)) ks ms).
  { clear -M. induction ks as [|k ks IH]; [exists []; constructor|]. destruct (M k (or_introl eq_refl)) as (ft & H).
    destruct IH as (ms & Hm); [intros k' Hk'; apply M; right; auto|]. exists (ft :: ms). constructor; auto. }
  destruct F as (ms & F). rewrite (Forall2_length' _ _ _ F). apply NoDup_incl_length.
  - clear -F N G. induction F as [|k ft ks ms [H1 H2] F IH]; [constructor|]. inversion N as [|? ? Hni N']; subst. constructor; auto.
    intros Hin. apply Hni. destruct (Forall2_In_r _ _ _ _ F Hin) as (k' & Hk' & _ & M'). replace k with k'; auto.
    eapply (makes_inj _ _ _ _ _ _ G); [exact M'|exact H2|reflexivity].
  - intros ft Hin. destruct (Forall2_In_r _ _ _ _ F Hin) as (k' & _ & H & _). auto.
Qed.
Lemma support_unique cs final h f t n m : support cs final h f t n -> support cs final h f t m -> n = m.
Proof.
  intros (a & Va & Ha) (b & Vb & Hb). pose proof (votes_unique _ _ _ _ _ _ Va Vb) as ->. destruct Ha as [[Ya ->]|[Na ->]], Hb as [[Yb ->]|[Nb ->]]; auto; contradiction.
Qed.
Lemma support_same cs final h f t t' n : (t == t')%Q -> support cs final h f t n -> support cs final h f t' n.
Proof.
  intros E (a & Va & Ha). exists a. split; [eapply votes_same; eauto|].
  assert (W : forall t t', (t == t')%Q -> (exists t1, tests_at final h f t1 /\ (t1 == t)%Q) -> exists t1, tests_at final h f t1 /\ (t1 == t')%Q).
  { intros u u' Eu (t1 & T & H). exists t1. split; auto. rewrite H. auto. }
  destruct Ha as [[Y ->]|[No ->]]; [left|right]; split; auto; [eapply W; eauto|]. intros H. apply No. eapply W; [symmetry; exact E|exact H].
Qed.
Lemma has_count nd k : counts_ok nd -> In k (en_cands nd) -> exists q, In (q, k) (counted_cands nd).
Proof. intros [L _] Hk. exact (combine_In_snd_ex (en_counts nd) (en_cands nd) k L Hk). Qed.
Lemma count_unique nd k q q' : counts_ok nd -> In (q, k) (counted_cands nd) -> In (q', k) (counted_cands nd) -> q = q'.
Proof.
  intros [L N] H H'. unfold counted_cands in *. apply combine_nth_error in H. apply combine_nth_error in H'. destruct H as (i & H1 & H2). destruct H' as (j & H3 & H4).
  rewrite (NoDup_nth_eq _ _ _ _ N H2 H4) in H1. congruence.
Qed.

(** A kept test stays among the candidates. *)
Lemma kept_stays dep cs final d h nd nd' f t k : good_registry d -> node_full cs final d h nd -> keeps_best (quota dep h) nd nd' ->
  kept_at dep cs final h f t -> makes d k f t -> In k (en_cands nd').
Proof.
  intros G F B ((c & t1 & Hc & T & Ht) & l & Hl & Hall) M.
  destruct (nf_all _ _ _ _ _ F c f t1 Hc T) as (k1 & Hk & M1). rewrite (makes_inj _ _ _ _ _ _ G M1 M Ht) in Hk. clear k1 M1.
  pose proof (nf_counts _ _ _ _ _ F) as C. destruct (has_count nd k C Hk) as (q & Hq).
  destruct (in_dec Nat.eq_dec k (en_cands nd')) as [Hi|Hi]; auto. exfalso.
  destruct (keeps_best_counts _ nd nd' C B) as [[L' N'] I].
  assert (Hfull : quota dep h < length (en_cands nd)).
  { destruct (Nat.lt_ge_cases (quota dep h) (length (en_cands nd))); auto. exfalso. apply Hi. eapply all_kept; eauto. }
  assert (Hlen : length (en_cands nd') = quota dep h) by (rewrite (kb_length _ _ _ B); lia).
  pose proof (nf_votes _ _ _ _ _ F q k f t Hq M) as Sq.
  assert (Hs : length (k :: en_cands nd') <= length l).
  { apply (few_candidates d); auto; [constructor; auto|]. intros k' Hk'.
    assert (Hb : exists q', In (q', k') (counted_cands nd) /\ q <= q').
    { destruct Hk' as [<-|Hk']; [exists q; auto|]. destruct (has_count nd' k') as (q' & Hq'); [split; auto|auto|]. exists q'. split; [apply (kb_old _ _ _ B); auto|].
      assert (Hni : ~ In (q, k) (counted_cands nd')) by (intros H; apply Hi; exact (in_combine_r _ _ _ _ H)).
      destruct (kb_best _ _ _ B _ _ Hq' Hq Hni) as [H|[H _]]; cbn [fst snd] in H; lia. }
    destruct Hb as (q' & Hq' & Hle). pose proof (in_combine_r _ _ _ _ Hq') as Hk2. destruct (nf_sound _ _ _ _ _ F) as [[_ Hno]|Hs]; [exfalso; apply (Hno c Hc); exists f, t1; auto|].
    destruct (Hs k' Hk2) as (c' & f' & t' & Hc' & T' & M'). destruct (Hall q Sq c' f' t' q' Hc' T' (nf_votes _ _ _ _ _ F _ _ _ _ Hq' M') Hle) as (t2 & Hin & Ht2).
    exists (f', t2). split; auto. cbn [fst snd]. destruct M' as (t3 & s3 & E3 & H3). exists t3, s3. split; auto. rewrite H3. symmetry. auto. }
  cbn [length] in Hs. lia.
Qed.
(** A dropped test does not. *)
Lemma dropped_goes dep cs final d h nd nd' f t k : good_registry d -> node_full cs final d h nd -> keeps_best (quota dep h) nd nd' ->
  dropped_at dep cs final h f t -> makes d k f t -> ~ In k (en_cands nd').
Proof.
  intros G F B ((c0 & Hc0 & T0) & Hdrop) M Hi. pose proof (nf_counts _ _ _ _ _ F) as C. destruct (keeps_best_counts _ nd nd' C B) as [[L' N'] I].
  destruct (nf_sound _ _ _ _ _ F) as [[_ Hno]|Hs]; [apply (Hno c0 Hc0 T0)|].
  destruct (Hs k (I k Hi)) as (c & f1 & t1 & Hc & T & M1). destruct (makes_fun _ _ _ _ _ _ M M1) as [<- Ht].
  destruct Hdrop as (l & Hl & Hd & Hmore); [exists c, t1; split; auto; split; auto; symmetry; auto|].
  destruct (has_count nd' k) as (q & Hq); [split; auto|auto|]. pose proof (nf_votes _ _ _ _ _ F q k f t (kb_old _ _ _ B _ Hq) M) as Sq.
  assert (K : forall ft, In ft l -> exists k', In k' (en_cands nd') /\ makes d k' (fst ft) (snd ft) /\ k' <> k).
  { intros [f' t'] Hin. destruct (Hmore f' t' Hin) as ((c' & t2 & Hc' & T' & Ht2) & Hlt). destruct (nf_all _ _ _ _ _ F c' f' t2 Hc' T') as (k' & Hk' & M').
    destruct (has_count nd k' C Hk') as (q' & Hq'). assert (M2 : makes d k' f' t') by (destruct M' as (t3 & s3 & E3 & H3); exists t3, s3; split; auto; rewrite H3; auto).
    pose proof (Hlt q q' Sq (nf_votes _ _ _ _ _ F _ _ _ _ Hq' M2)) as Hlt'. exists k'. cbn [fst snd]. split; [|split; auto].
    - destruct (in_dec Nat.eq_dec k' (en_cands nd')) as [Hi'|Hi']; auto. exfalso.
      assert (Hni : ~ In (q', k') (counted_cands nd')) by (intros H; apply Hi'; exact (in_combine_r _ _ _ _ H)).
      destruct (kb_best _ _ _ B _ _ Hq Hq' Hni) as [H|[H _]]; cbn [fst snd] in H; lia.
    - intros ->. pose proof (count_unique nd k q q' C (kb_old _ _ _ B _ Hq) Hq'). lia. }
  assert (E : exists ks, Forall2 (fun ft k' => In k' (en_cands nd') /\ makes d k' (fst ft) (snd ft) /\ k' <> k) l ks).
  { clear -K. induction l as [|ft l IH]; [exists []; constructor|]. destruct (K ft (or_introl eq_refl)) as (k' & H). destruct IH as (ks & Hks); [intros; apply K; right; auto|].
    exists (k' :: ks). constructor; auto. }
  destruct E as (ks & Fk).
  assert (Nk : NoDup ks).
  { clear -Fk Hd. induction Fk as [|ft k' l ks (H1 & H2 & H3) Fk IH]; [constructor|]. inversion Hd as [|? ? Hf Hd']; subst. constructor; auto.
    intros Hin. destruct (Forall2_In_r _ _ _ _ Fk Hin) as (ft' & Hft & _ & M' & _). rewrite Forall_forall in Hf. apply (Hf ft' Hft). apply (makes_fun _ _ _ _ _ _ H2 M'). }
  assert (Hlen : length (k :: ks) <= length (en_cands nd')).
  { apply NoDup_incl_length.
    - constructor; auto. intros Hin. destruct (Forall2_In_r _ _ _ _ Fk Hin) as (_ & _ & _ & _ & H). auto.
    - intros k' [<-|Hk']; auto. destruct (Forall2_In_r _ _ _ _ Fk Hk') as (_ & _ & H & _). auto. }
  cbn [length] in Hlen. rewrite <- (Forall2_length' _ _ _ Fk), (kb_length _ _ _ B) in Hlen. lia.
Qed.

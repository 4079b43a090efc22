(** Lemmas about clause pricing: the heuristic and the integer program. *)
From Verif Require Import Base Lp LpProofs BdrModel SpecBdr BdrProofs BdrLpProofs.
From Coq Require Import Sorted.
Open Scope nat_scope.
Local Arguments Nat.ltb _ _ : simpl never.
Local Arguments Nat.sub _ _ : simpl never.

(** * Combinations *)

Lemma combinations_In len : forall s m k,
  In k (combinations (seq s len) m) <-> increasing k /\ Forall (fun j => s <= j < s + len) k /\ length k = m.
Proof.
  induction len as [|len IH]; intros s m k.
  - destruct m; simpl; split; intros H.
    + destruct H as [<-|[]]. repeat split; constructor.
    + destruct H as (_ & _ & H). destruct k; [auto|discriminate].
    + contradiction.
    + destruct H as (_ & H & E). destruct k as [|j k]; [discriminate|]. inversion H; subst. lia.
  - destruct m as [|m].
    + simpl. split; intros H.
      * destruct H as [<-|[]]. repeat split; constructor.
      * destruct H as (_ & _ & H). destruct k; [auto|discriminate].
    + cbn [seq combinations]. rewrite in_app_iff, in_map_iff. split.
      * intros [(k' & <- & H)|H].
        -- apply IH in H. destruct H as (H1 & H2 & H3). split; [|split].
           ++ constructor; auto. eapply Forall_impl; [|exact H2]. cbn. lia.
           ++ constructor; [lia|]. eapply Forall_impl; [|exact H2]. cbn. lia.
           ++ cbn. lia.
        -- apply IH in H. destruct H as (H1 & H2 & H3). repeat split; auto.
           eapply Forall_impl; [|exact H2]. cbn. lia.
      * intros (H1 & H2 & H3). destruct k as [|j k]; [discriminate|]. inversion H1 as [|? ? H1' H1'']; subst.
        inversion H2 as [|? ? Hj H2']; subst. cbn in H3. destruct (Nat.eq_dec j s) as [->|Hj'].
        -- left. exists k. split; auto. apply IH. split; [auto|split; [|lia]].
           rewrite Forall_forall in *. intros a Ha. specialize (H1'' a Ha). specialize (H2' a Ha). lia.
        -- right. apply IH. split; [auto|split; [|auto]]. constructor; [lia|].
           rewrite Forall_forall in *. intros a Ha. specialize (H1'' a Ha). specialize (H2' a Ha). lia.
Qed.

Lemma sorted_app {A} (R : A -> A -> Prop) l m : StronglySorted R l -> StronglySorted R m ->
  (forall a b, In a l -> In b m -> R a b) -> StronglySorted R (l ++ m).
Proof.
  induction 1 as [|a l HS IH HF]; intros HM H; simpl; auto. constructor.
  - apply IH; auto. intros; apply H; auto; right; auto.
  - apply Forall_app. split; auto. apply Forall_forall. intros b Hb. apply H; auto. left; auto.
Qed.

Lemma combinations_sorted len : forall s m, StronglySorted lex (combinations (seq s len) (S m)).
Proof.
  induction len as [|len IH]; intros s m; [constructor|].
  cbn [seq combinations]. apply sorted_app.
  - destruct m as [|m].
    + destruct len; cbn; constructor; constructor.
    + specialize (IH (S s) m). induction IH as [|a l HS IH2 HF]; cbn; constructor; auto.
      apply Forall_forall. intros b Hb. apply in_map_iff in Hb. destruct Hb as (b' & <- & Hb').
      rewrite Forall_forall in HF. specialize (HF b' Hb'). cbn. auto.
  - apply IH.
  - intros a b Ha Hb. apply in_map_iff in Ha. destruct Ha as (a' & <- & _). apply combinations_In in Hb.
    destruct Hb as (_ & Hb & Hl). destruct b as [|j b]; [discriminate|]. inversion Hb; subst. cbn. left. lia.
Qed.

Lemma sorted_filter {A} (R : A -> A -> Prop) (f : A -> bool) l : StronglySorted R l -> StronglySorted R (filter f l).
Proof.
  induction 1 as [|a l HS IH HF]; simpl; [constructor|]. destruct (f a); auto. constructor; auto.
  apply Forall_forall. intros b Hb. apply filter_In in Hb. rewrite Forall_forall in HF. apply HF. apply Hb.
Qed.

Lemma lex_irrefl a : ~ lex a a.
Proof. induction a as [|x a IH]; simpl; [tauto|]. intros [H|[_ H]]; [lia|auto]. Qed.

Lemma sorted_NoDup {A} (R : A -> A -> Prop) l : (forall a, ~ R a a) -> StronglySorted R l -> NoDup l.
Proof.
  intros HR. induction 1 as [|a l HS IH HF]; constructor; auto. intros H. rewrite Forall_forall in HF. apply (HR a). auto.
Qed.

(** All clauses the heuristic looks at. *)
Definition candidates (n K : nat) : list clause := flat_map (combinations (seq 0 n)) (seq 1 K).

Lemma candidates_In n K k : In k (candidates n K) <-> increasing k /\ clause_over n k /\ 1 <= length k <= K.
Proof.
  unfold candidates. rewrite in_flat_map. split.
  - intros (m & Hm & H). apply in_seq in Hm. apply combinations_In in H. destruct H as (H1 & H2 & H3).
    repeat split; auto; try lia. eapply Forall_impl; [|exact H2]. cbn. lia.
  - intros (H1 & H2 & H3). exists (length k). split; [apply in_seq; lia|]. apply combinations_In. repeat split; auto.
    eapply Forall_impl; [|exact H2]. cbn. lia.
Qed.

Lemma candidates_sorted n K : StronglySorted before (candidates n K).
Proof.
  unfold candidates. assert (G : forall m s, 1 <= s -> StronglySorted before (flat_map (combinations (seq 0 n)) (seq s m))).
  { induction m as [|m IH]; intros s Hs; [constructor|]. cbn [seq flat_map]. apply sorted_app.
    - destruct s as [|s]; [lia|]. pose proof (combinations_sorted n 0 s) as H.
      assert (HL : forall k, In k (combinations (seq 0 n) (S s)) -> length k = S s) by (intros k Hk; apply combinations_In in Hk; apply Hk).
      induction H as [|a l HS IH2 HF]; constructor.
      + apply IH2. intros; apply HL; right; auto.
      + rewrite Forall_forall in *. intros b Hb. right. split; [|auto]. rewrite !HL; auto; [right; auto|left; auto].
    - apply IH. lia.
    - intros a b Ha Hb. apply combinations_In in Ha. apply in_flat_map in Hb. destruct Hb as (s' & Hs' & Hb).
      apply in_seq in Hs'. apply combinations_In in Hb. left. lia. }
  apply G. lia.
Qed.

Lemma check_duals_ok cc cs : (0 <= cc)%Q -> Forall (fun d => 0 <= d)%Q cs -> check_duals cc cs = Ok tt.
Proof.
  intros H HF. unfold check_duals. apply Qle_bool_iff in H. rewrite H. cbn.
  induction HF as [|d cs Hd HF IH]; simpl; auto. apply Qle_bool_iff in Hd. rewrite Hd. cbn. auto.
Qed.

Lemma check_duals_inv cc cs u : check_duals cc cs = Ok u -> (0 <= cc)%Q /\ Forall (fun d => 0 <= d)%Q cs.
Proof.
  unfold check_duals. intros H. inv_ok. apply assert_ok in E. apply Qle_bool_iff in E. split; auto.
  clear E. revert u H. destruct v. induction cs as [|d cs IH]; intros u H; constructor; simpl in H; inv_ok.
  - apply assert_ok in E. apply Qle_bool_iff in E. auto.
  - destruct v. eauto.
Qed.

Section Data.
Variables (n : nat) (X : matrix) (y : list nat).
Hypothesis HD : dataset n X y.
Notation np := (length (positives X y)).

(** * The heuristic *)

Lemma heuristic_cost_ok cc cs k : clause_over n k -> length cs = np ->
  exists q, heuristic_reduced_cost X y cc cs k = Ok q /\ (q == clause_cost X y cc cs k)%Q.
Proof.
  intros Hk HL. unfold heuristic_reduced_cost.
  set (body := fun (e : list Q) (target : nat) (st : Q * nat) => let '(rc, pos) := st in
       let pos1 := if target =? 1 then S pos else pos in
       let* satisfied := satisfies_clause e k in
       if satisfied =? 0 then Ok (rc, pos1)
       else if target =? 1 then let* d := getitem cs (pos1 - 1) in Ok ((rc - d)%Q, pos1)
       else Ok ((rc + 1)%Q, pos1)).
  rewrite (for_each_ext _ _ (fun j st => let* e := getitem X j in let* t := getitem y j in body e t st))
    by (intros j [rc pos] _; reflexivity).
  rewrite (for_each_rows X y body) by (apply (data_lengths n X y HD)).
  unfold clause_cost, false_positives. unfold positives, negatives in *. revert HL.
  assert (G : forall l pre ds rc, (forall r t, In (r, t) l -> length r = n /\ (t = 0 \/ t = 1)) ->
     cs = pre ++ ds -> length ds = length (map fst (filter (fun s => snd s =? 1) l)) ->
     exists q pos, for_each l (fun et st => body (fst et) (snd et) st) (rc, length pre) = Ok (q, pos)
      /\ (q == rc - qsum (fun rm => if accepts (fst rm) k then snd rm else 0) (combine (map fst (filter (fun s => snd s =? 1%nat) l)) ds)
             + qn (length (filter (fun r => accepts r k) (map fst (filter (fun s => snd s =? 0%nat) l)))))%Q).
  { induction l as [|[r t] l IH]; intros pre ds rc Hl Hcs Hlen.
    - exists rc, (length pre). cbn. split; auto. change (qn 0) with 0%Q. lra.
    - destruct (Hl r t) as [Hr Ht]; [left; auto|].
      assert (Hl' : forall r t, In (r, t) l -> length r = n /\ (t = 0 \/ t = 1)) by (intros; apply Hl; right; auto).
      cbn [for_each fst snd]. unfold body at 1. rewrite (satisfies_clause_ok n) by auto. cbn [bind].
      destruct Ht as [-> | ->]; cbn [Nat.eqb filter snd map fst].
      + destruct (accepts r k) eqn:Ea; cbn [Nat.eqb bind].
        * destruct (IH pre ds (rc + 1)%Q Hl' Hcs Hlen) as (q & pos & E & Eq). exists q, pos. split; [exact E|].
          rewrite Eq. cbn [length]. unfold qn. rewrite Nat2Z.inj_succ. unfold Z.succ. rewrite inject_Z_plus.
          change (inject_Z 1) with 1%Q. lra.
        * destruct (IH pre ds rc Hl' Hcs Hlen) as (q & pos & E & Eq). exists q, pos. split; [exact E|].
          rewrite Eq. reflexivity.
      + cbn [filter snd Nat.eqb map fst length] in Hlen. destruct ds as [|d ds]; [discriminate|]. cbn [combine]. rewrite qsum_cons. cbn [fst snd].
        assert (Hcs' : cs = (pre ++ [d]) ++ ds) by (rewrite <- app_assoc; auto).
        assert (Lp : length (pre ++ [d]) = S (length pre)) by (rewrite app_length; cbn; lia).
        destruct (accepts r k) eqn:Ea; cbn [Nat.eqb].
        * assert (EG : getitem cs (S (length pre) - 1) = Ok d)
            by (rewrite Hcs; replace (S (length pre) - 1) with (length pre + 0) by lia; rewrite getitem_app_r; reflexivity).
          rewrite EG. cbn [bind].
          destruct (IH (pre ++ [d]) ds (rc - d)%Q Hl' Hcs' ltac:(cbn in Hlen; lia)) as (q & pos & E & Eq). rewrite Lp in E.
          exists q, pos. split; [exact E|]. rewrite Eq. lra.
        * cbn [bind]. destruct (IH (pre ++ [d]) ds rc Hl' Hcs' ltac:(cbn in Hlen; lia)) as (q & pos & E & Eq). rewrite Lp in E.
          exists q, pos. split; [exact E|]. rewrite Eq. lra. }
  intros HL. destruct (G (combine X y) [] cs (cc * qn (1 + length k))%Q (data_row n X y HD) eq_refl HL) as (q & pos & E & Eq).
  cbn [length] in E. rewrite E. cbn [bind]. exists q. split; auto.
Qed.

Lemma heuristic_ok K cc cs : (0 <= cc)%Q -> Forall (fun d => 0 <= d)%Q cs -> length cs = np ->
  heuristic_generate_columns K X y (cc, cs)
  = Ok (filter (fun k => Qltb (clause_cost X y cc cs k) (- eps)) (candidates n K)).
Proof.
  intros H1 H2 HL. unfold heuristic_generate_columns. cbn [fst snd]. rewrite check_duals_ok by auto. cbn [bind].
  rewrite (n_columns_data n X y HD). unfold candidates.
  assert (IN : forall l acc, (forall k, In k l -> clause_over n k) ->
    for_each l (fun c acc => let* rc := heuristic_reduced_cost X y cc cs c in Ok (if Qltb rc (- eps) then acc ++ [c] else acc)) acc
    = Ok (acc ++ filter (fun k => Qltb (clause_cost X y cc cs k) (- eps)) l)).
  { induction l as [|k l IH]; intros acc Hl; simpl; [rewrite app_nil_r; auto|].
    destruct (heuristic_cost_ok cc cs k) as (q & E & Eq); [apply Hl; left; auto|auto|]. rewrite E. cbn [bind].
    assert (EB : Qltb q (- eps) = Qltb (clause_cost X y cc cs k) (- eps)) by (unfold Qltb; rewrite Eq; auto).
    rewrite EB. rewrite IH by (intros; apply Hl; right; auto). destruct (Qltb (clause_cost X y cc cs k) (- eps)); auto. rewrite <- app_assoc. auto. }
  assert (G : forall m acc, for_each m (fun size acc => for_each (combinations (seq 0 n) size)
       (fun c acc => let* rc := heuristic_reduced_cost X y cc cs c in Ok (if Qltb rc (- eps) then acc ++ [c] else acc)) acc) acc
     = Ok (acc ++ filter (fun k => Qltb (clause_cost X y cc cs k) (- eps)) (flat_map (combinations (seq 0 n)) m))).
  { induction m as [|s m IH]; intros acc; simpl; [rewrite app_nil_r; auto|]. rewrite IN.
    - cbn [bind]. rewrite IH, <- app_assoc, filter_app. auto.
    - intros k Hk. apply combinations_In in Hk. destruct Hk as (_ & Hk & _). eapply Forall_impl; [|exact Hk]. cbn. lia. }
  apply G.
Qed.
End Data.

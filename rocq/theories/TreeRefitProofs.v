(** Lemmas for C32 and C85: a second training of the tree classifier keeps the data of the first. *)
From Coq Require Import String Sorted.
From Verif Require Import Base Lp FitModel SpecFit FitInvProofs FitMainProofs TreeModel TreePricingModel TreeFitModel.
Open Scope nat_scope.
(** The data of the master problem, and the paths it has, stay. *)
Definition same_data (s s' : tmaster) : Prop :=
  tm_generated s' = tm_generated s /\ tm_X s' = tm_X s /\ tm_y s' = tm_y s /\ exists more, tm_paths s' = tm_paths s ++ more.
Lemma same_refl s : same_data s s.
Proof. unfold same_data. repeat split. exists []. symmetry. apply app_nil_r. Qed.
Lemma same_trans a b c : same_data a b -> same_data b c -> same_data a c.
Proof. intros (A1 & A2 & A3 & m1 & A4) (B1 & B2 & B3 & m2 & B4). unfold same_data. repeat split; try congruence. exists (m1 ++ m2). rewrite B4, A4, app_assoc. reflexivity. Qed.
Ltac sd := split; [reflexivity|]; split; [reflexivity|]; split; [reflexivity|]; exists []; symmetry; apply app_nil_r.
Ltac unbind := repeat match goal with H : bind _ _ = Ok _ |- _ => apply bind_ok in H; destruct H as [? [? H]] | H : (let '(_, _) := ?p in _) = Ok _ |- _ => destruct p end.
Lemma same_beta s n s' : add_beta_cuts s = Ok (n, s') -> same_data s s'.
Proof. unfold add_beta_cuts. intros E. unbind. match goal with H : Ok _ = Ok _ |- _ => injection H as <- <- end. sd. Qed.
Lemma same_cuts f s r s' : add_cuts f s = Ok (r, s') -> same_data s s'.
Proof.
  unfold add_cuts. intros E. apply bind_ok in E. destruct E as [co [_ E]]. destruct (length _ =? 0); [injection E as <- <-; apply same_refl|]. unbind. match goal with H : Ok _ = Ok _ |- _ => injection H as <- <- end. sd.
Qed.
Lemma same_rounds sv : forall n s nc r s', cut_rounds sv n s nc = Ok (r, s') -> same_data s s'.
Proof.
  induction n as [|n IH]; intros s nc r s' E; cbn [cut_rounds] in E; [injection E as <- <-; apply same_refl|].
  destruct (tm_answer s) as [[x pi]|]; [|injection E as <- <-; apply same_refl].
  set (s1 := store_lp_solution x s) in *. assert (H1 : same_data s s1) by sd. apply (same_trans _ _ _ H1). clearbody s1. clear H1.
  apply bind_ok in E. destruct E as [[nb s2] [E2 E]]. assert (H2 : same_data s1 s2) by (destruct (tm_beta_cuts s1); [apply (same_beta _ _ _ E2)|injection E2 as <- <-; apply same_refl]).
  apply bind_ok in E. destruct E as [[cr s3] [E3 E]]. assert (H3 : same_data s2 s3) by (destruct (tm_gen_cuts s2 && (nb =? 0)); [apply (same_cuts _ _ _ _ E3)|injection E3 as <- <-; apply same_refl]).
  apply (same_trans _ _ _ H2), (same_trans _ _ _ H3). set (s4 := add_total _ s3) in *. assert (H4 : same_data s3 s4) by sd. apply (same_trans _ _ _ H4).
  destruct ((0 <? length cr) || (0 <? nb)); [|injection E as <- <-; apply same_refl].
  apply IH in E. eapply same_trans; [|exact E]. sd.
Qed.
Lemma same_rmp sv s d s' : solve_rmp sv s = Ok (d, s') -> same_data s s'.
Proof.
  unfold solve_rmp. intros E. apply bind_ok in E. destruct E as [[] [_ E]]. set (s1 := solve_lp sv (start_iter s)) in *. assert (H1 : same_data s s1) by sd.
  apply (same_trans _ _ _ H1). clearbody s1. apply bind_ok in E. destruct E as [[nc s2] [E2 E]].
  assert (H2 : same_data s1 s2) by (destruct (tm_iter s1 mod 10 =? 0); [apply (same_rounds _ _ _ _ _ _ E2)|injection E2 as <- <-; apply same_refl]).
  apply (same_trans _ _ _ H2). destruct (tm_answer s2) as [[x pi]|]; [|injection E as <- <-; apply same_refl]. apply bind_ok in E. destruct E as [dd [_ E]]. injection E as <- <-. sd.
Qed.
Lemma same_add p s b s' : add_column p s = Ok (b, s') -> same_data s s'.
Proof.
  unfold add_column. destruct (new_var _ _ _ _) as [v m1]. intros E. unbind.
  match goal with H : Ok _ = Ok _ |- _ => injection H as <- <- end. split; [reflexivity|]. split; [reflexivity|]. split; [reflexivity|]. eexists. reflexivity.
Qed.
Lemma same_ip a s b s' : solve_ip a s = Ok (b, s') -> same_data s s'.
Proof. unfold solve_ip. intros E. apply bind_ok in E. destruct E as [[] [_ E]]. destruct a; [|discriminate]. injection E as <- <-. sd. Qed.

Lemma refit_same sv A clk X y fuel s : tm_generated (tw_master (f_world s)) = true ->
  same_data (tw_master (f_world s)) (tw_master (f_world (fst (tree_fit sv A clk X y fuel s)))).
Proof.
  intros HG. set (I := fun w => same_data (tw_master (f_world s)) (tw_master w)).
  change (I (f_world (fst (tree_fit sv A clk X y fuel s)))).
  apply (keeps_fit (tree_env sv A clk X y) I); [..|apply same_refl]; unfold I; cbn [tree_env c_generate_mp c_solve_rmp c_improved c_reset_timer c_update c_generate c_add c_solve_ip snd].
  - intros w w' E H. unfold tree_generate_mp, generate_mp in E. pose proof H as (G & _). rewrite HG in G. rewrite G in E. cbn [bind] in E. injection E as <-. exact H.
  - intros w d w' E H. unfold tree_solve_rmp in E. apply bind_ok in E. destruct E as [[d0 m] [E1 E]]. injection E as <- <-. eapply same_trans; [exact H|]. apply (same_rmp _ _ _ _ E1).
  - intros w d w' E H. injection E as <- <-. exact H.
  - auto.
  - intros l i d w w' E H. unfold tree_update in E. destruct (l =? 0).
    + apply bind_ok in E. destruct E as [[h sp] [E1 E]]. injection E as <-. eapply same_trans; [exact H|]. sd.
    + apply bind_ok in E. destruct E as [[c lf] [E1 E]]. apply bind_ok in E. destruct E as [[sub pr] [E2 E]]. apply bind_ok in E. destruct E as [pr1 [E3 E]]. injection E as <-. exact H.
  - intros l i d w cols w' E H. unfold tree_generate in E. destruct (l =? 0).
    + apply bind_ok in E. destruct E as [[h sp] [E1 E]]. injection E as <- <-. exact H.
    + apply bind_ok in E. destruct E as [[c lf] [E1 E]]. apply bind_ok in E. destruct E as [[sub pr] [E2 E]]. destruct (is_sat c).
      * apply bind_ok in E. destruct E as [[ps [sub1 pr1]] [E3 E]]. injection E as <- <-. exact H.
      * apply bind_ok in E. destruct E as [ps [E3 E]]. injection E as <- <-. exact H.
  - intros c w b w' E H. unfold tree_add in E. apply bind_ok in E. destruct E as [[b0 m] [E1 E]]. injection E as <- <-. eapply same_trans; [exact H|]. apply (same_add _ _ _ _ E1).
  - intros w b w' E H. unfold tree_solve_ip in E. apply bind_ok in E. destruct E as [[b0 m] [E1 E]]. injection E as <- <-. eapply same_trans; [exact H|]. apply (same_ip _ _ _ _ E1).
Qed.

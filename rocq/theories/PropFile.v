(** C82: the results file of the experiment script. *)
From Coq Require Import String Ascii DecimalString DecimalZ DecimalPos.
From Verif Require Import Base Lp FitModel TreeModel TreePricingModel TreeFitModel ExpModel ExpMainModel SpecTree SpecTreeTrain SpecExp SpecPrep SpecMain SpecSingle ScriptModel SpecScript
  PropExpRows PropTreeTrain PropPrep PropMain PropSingle PropScript PropData.
Open Scope nat_scope.

(** ** Strings *)
Lemma occurs_app c a b : occurs c (a ++ b) = occurs c a || occurs c b.
Proof. induction a as [|d a IH]; [reflexivity|]. cbn [String.append occurs]. rewrite IH. apply orb_assoc. Qed.
Lemma after_none c s : occurs c s = false -> after_last c s = s.
Proof. destruct s as [|d s]; [reflexivity|]. cbn [occurs after_last]. intros ->. reflexivity. Qed.
Lemma after_free c s : occurs c (after_last c s) = false.
Proof. induction s as [|d s IH]; [reflexivity|]. cbn [after_last]. destruct (Ascii.eqb d c || occurs c s) eqn:E; [exact IH|]. cbn [occurs]. exact E. Qed.
Lemma after_app c a b : occurs c b = false -> after_last c (a ++ String c b) = b.
Proof.
  intros H. induction a as [|d a IH]; cbn [String.append after_last].
  - rewrite Ascii.eqb_refl. cbn [orb]. apply after_none. exact H.
  - rewrite occurs_app. cbn [occurs]. rewrite Ascii.eqb_refl, orb_true_r, orb_true_r. exact IH.
Qed.
Lemma append_length a b : String.length (a ++ b) = String.length a + String.length b.
Proof. induction a as [|d a IH]; [reflexivity|]. cbn. rewrite IH. reflexivity. Qed.
Lemma append_assoc a b c : ((a ++ b) ++ c = a ++ b ++ c)%string.
Proof. induction a as [|d a IH]; [reflexivity|]. cbn. rewrite IH. reflexivity. Qed.
Lemma append_cancel a b c d : String.length c = String.length d -> (a ++ c = b ++ d)%string -> a = b /\ c = d.
Proof.
  intros L. revert b. induction a as [|x a IH]; intros [|y b] H; cbn in H.
  - auto.
  - exfalso. subst c. cbn in L. rewrite append_length in L. lia.
  - exfalso. subst d. cbn in L. rewrite append_length in L. lia.
  - injection H as -> H. destruct (IH b H) as [-> ->]. auto.
Qed.
Lemma append_inj a b c : (a ++ b = a ++ c)%string -> b = c.
Proof. induction a as [|x a IH]; cbn; [auto|]. intros H. injection H as H. auto. Qed.
Lemma uint_free c d : c = "/"%char \/ c = "_"%char -> occurs c (NilZero.string_of_uint d) = false.
Proof.
  intros H. assert (G : occurs c (NilEmpty.string_of_uint d) = false) by (induction d; cbn [NilEmpty.string_of_uint occurs]; try rewrite IHd; destruct H as [-> | ->]; reflexivity).
  destruct d; try exact G. destruct H as [-> | ->]; reflexivity.
Qed.
Lemma decimal_free c z : c = "/"%char \/ c = "_"%char -> occurs c (decimal z) = false.
Proof. intros H. unfold decimal. destruct (Z.to_int z); cbn [NilZero.string_of_int occurs]; rewrite uint_free by exact H; destruct H as [-> | ->]; reflexivity. Qed.
Lemma to_int_proper z : Z.to_int z <> Decimal.Pos Decimal.Nil /\ Z.to_int z <> Decimal.Neg Decimal.Nil.
Proof. destruct z; cbn; split; try discriminate; intros H; injection H as H; revert H; apply Unsigned.to_uint_nonnil. Qed.
Lemma decimal_inj z z' : decimal z = decimal z' -> z = z'.
Proof.
  intros H. unfold decimal in H. destruct (to_int_proper z) as [A B]. destruct (to_int_proper z') as [A' B']. apply (f_equal NilZero.int_of_string) in H. rewrite !NilZero.isi in H by assumption. injection H as H. apply to_int_inj. exact H.
Qed.

(** The results directory of the options ends with a slash. *)
Lemma asked_dir ti opts s : asked ti opts s -> exists p, st_dir s = (p ++ "/")%string.
Proof.
  intros A. rewrite (ak_dir _ _ _ A). destruct (last_arg _ opts) as [a|]; [exists ("results/" ++ a)%string; rewrite append_assoc; reflexivity|exists "results"%string; reflexivity].
Qed.
Lemma base_of_name s p : st_dir s = (p ++ "/")%string -> basename (results_name s) = ("T_" ++ basename (st_train s) ++ "_d_" ++ decimal (st_depth s) ++ "_results.csv")%string.
Proof.
  intros H. unfold results_name. rewrite H, append_assoc. cbn [String.append]. unfold basename at 1. apply after_app. cbn [occurs].
  rewrite !occurs_app. unfold basename. rewrite after_free. cbn [occurs]. rewrite occurs_app, decimal_free by auto. reflexivity.
Qed.

(** Two runs write the same file exactly if they agree in the results directory, the name of the training file without its directory, and the depth:
    other options do not matter. *)
Theorem C82_name : forall to_int opts opts' s s', asked to_int opts s -> asked to_int opts' s' ->
  (results_name s = results_name s' <-> st_dir s = st_dir s' /\ basename (st_train s) = basename (st_train s') /\ st_depth s = st_depth s').
Proof.
  intros ti o o' s s' A A'. destruct (asked_dir _ _ _ A) as [p Hp]. destruct (asked_dir _ _ _ A') as [p' Hp']. split.
  - intros E. pose proof (f_equal basename E) as B. rewrite (base_of_name s p Hp), (base_of_name s' p' Hp') in B.
    unfold results_name in E. rewrite B in E. apply append_cancel in E; [|reflexivity]. split; [apply E|]. apply append_inj in B.
    rewrite <- !append_assoc in B. apply append_cancel in B; [|reflexivity]. destruct B as [B _].
    assert (D : decimal (st_depth s) = decimal (st_depth s')).
    { apply (f_equal (after_last "_")) in B. rewrite !append_assoc in B. change ("_d_" ++ decimal (st_depth s))%string with ("_d" ++ String "_" (decimal (st_depth s)))%string in B.
      change ("_d_" ++ decimal (st_depth s'))%string with ("_d" ++ String "_" (decimal (st_depth s')))%string in B. rewrite <- !append_assoc in B. rewrite !after_app in B by (apply decimal_free; auto). exact B. }
    rewrite D in B. apply append_cancel in B; [|reflexivity]. destruct B as [B _]. apply append_cancel in B; [|reflexivity]. split; [apply B|apply decimal_inj; exact D].
  - intros (H1 & H2 & H3). unfold results_name. rewrite H1, H2, H3. reflexivity.
Qed.
Print Assumptions C82_name.

Lemma name_new ti opts s : asked ti opts s -> results_name s <> st_train s.
Proof.
  intros A E. destruct (asked_dir _ _ _ A) as [p Hp]. apply (f_equal basename) in E. rewrite (base_of_name s p Hp) in E. apply (f_equal String.length) in E. cbn [String.append String.length] in E.
  rewrite append_length in E. cbn in E. lia.
Qed.

Lemma entry_at (h l : list field) name v j : nth_error h j = Some (FText name) -> nth_error l j = Some v -> under h l name v.
Proof. intros; eexists; eauto. Qed.
Ltac entry j := first [(apply (entry_at _ _ _ _ j); reflexivity) | match j with 17 => fail 1 | _ => let i := constr:(S j) in entry i end].
Lemma lines_ok ct r1 r2 : exists names l1 l2, results_lines ct r1 r2 = Ok [map FText names; l1; l2] /\ Sorted.StronglySorted (fun a b => String.compare a b = Lt) names /\ length names = 17 /\
  under (map FText names) l1 "name" (FText "CART") /\ reports (under (map FText names) l1) r1 /\ under (map FText names) l2 "name" (FText "CG1") /\ reports (under (map FText names) l2) r2 /\
  under (map FText names) l2 "mster_cuts_time" (FQ ct).
Proof.
  eexists _, _, _. split; [reflexivity|]. cbn [map]. split; [repeat constructor|]. split; [reflexivity|].
  split; [entry O|]. split; [constructor; entry O|]. split; [entry O|]. split; [constructor; entry O|]. entry O.
Qed.

(** A run changes at most one file, and only if it finishes: the results file then has a sorted header and the rows CART and CG1, with every result
    under its heading.  The training data are not touched. *)
Theorem C82_file : forall V F (sy : system V F) opts fuel fs e fs', script sy opts fuel fs = (e, fs') ->
  (e <> Finished -> fs' = fs) /\
  (e = Finished -> exists l s ftrain ftest train test wd r1 r2 names l1 l2,
     opts = Some l /\ asked (sy_int sy) l s /\
     fs (st_train s) = Some ftrain /\ sy_parse sy ftrain (st_sep s) (st_header s) = Ok train /\
     fs (st_test s) = Some ftest /\ sy_parse sy ftest (st_sep s) (st_header s) = Ok test /\
     prepare_data sy (st_depth s) train test = Ok wd /\ main wd (options_of s) fuel = Done (r1, r2) /\
     sy_opens sy (results_name s) = true /\
     fs' (results_name s) = Some (sy_write sy [map FText names; l1; l2]) /\ (forall n, n <> results_name s -> fs' n = fs n) /\ results_name s <> st_train s /\
     Sorted.StronglySorted (fun a b => String.compare a b = Lt) names /\ length names = 17 /\
     under (map FText names) l1 "name" (FText "CART") /\ reports (under (map FText names) l1) r1 /\
     under (map FText names) l2 "name" (FText "CG1") /\ reports (under (map FText names) l2) r2).
Proof.
  intros V F sy opts fuel fs e fs' E. unfold script in E. destruct opts as [l|]; [|injection E as <- <-; split; [auto|discriminate]].
  destruct (read_options (sy_int sy) l defaults) as [[s|]|e0] eqn:Er; [|injection E as <- <-; split; [auto|discriminate]..]. pose proof (read_asked _ _ _ Er) as A.
  unfold run in E. destruct (fs (st_train s)) as [ftrain|] eqn:E1; [|injection E as <- <-; split; [auto|discriminate]].
  destruct (sy_parse sy ftrain _ _) as [train|] eqn:E2; [|injection E as <- <-; split; [auto|discriminate]].
  destruct (fs (st_test s)) as [ftest|] eqn:E3; [|injection E as <- <-; split; [auto|discriminate]].
  destruct (sy_parse sy ftest _ _) as [test|] eqn:E4; [|injection E as <- <-; split; [auto|discriminate]].
  destruct (prepare_data sy _ train test) as [wd|] eqn:E5; [|injection E as <- <-; split; [auto|discriminate]].
  destruct (main wd _ fuel) as [[r1 r2]|e0|] eqn:E6; [|injection E as <- <-; split; [auto|discriminate]..].
  destruct (sy_opens sy (results_name s)) eqn:E7; [|injection E as <- <-; split; [auto|discriminate]].
  destruct (lines_ok (sy_cut_time sy) r1 r2) as (names & l1 & l2 & E8 & H1 & H2 & H3 & H4 & H5 & H6 & _). rewrite E8 in E. injection E as <- <-. split; [congruence|]. intros _.
  exists l, s, ftrain, ftest, train, test, wd, r1, r2, names, l1, l2. repeat (split; [first [assumption|reflexivity]|]). split; [unfold store; rewrite String.eqb_refl; reflexivity|].
  split; [intros n Hn; unfold store; destruct (String.eqb_spec n (results_name s)); [contradiction|reflexivity]|]. split; [eapply name_new; exact A|]. auto 10.
Qed.
Print Assumptions C82_file.

(** ** The whole script *)
Lemma prepared_fields V F (sy : system V F) depth train test wd : prepare_data sy depth train test = Ok wd -> wd_pre_clock wd = sy_pre_clock sy /\ wd_solvers wd = sy_solvers sy.
Proof.
  unfold prepare_data. intros E. destruct (load train test) as [[[[X y] Xt] yt]|]; [|discriminate E]. cbn [bind] in E.
  destruct (encode _ _ y); [|discriminate E]. cbn [bind] in E. destruct (encode _ _ yt); [|discriminate E]. cbn [bind] in E. destruct (depth <? 0)%Z; [discriminate E|]. destruct (depth =? 0)%Z; [discriminate E|].
  destruct (map_res _ X); [|discriminate E]. cbn [bind] in E. destruct (map_res _ Xt); [|discriminate E]. cbn [bind] in E. injection E as <-. auto.
Qed.

(** With usable data a run finishes, or a test sample has no path (ValueError), or the results file cannot be opened; nothing else stops it. *)
Theorem C82_returns : forall V F (sy : system V F) l s fs ftrain ftest train test,
  read_options (sy_int sy) l defaults = Ok (Some s) ->
  fs (st_train s) = Some ftrain -> sy_parse sy ftrain (st_sep s) (st_header s) = Ok train -> fs (st_test s) = Some ftest -> sy_parse sy ftest (st_sep s) (st_header s) = Ok test ->
  good_run sy s train test ->
  exists bound, forall fuel, bound <= fuel -> exists e fs', script sy (Some l) fuel fs = (e, fs') /\
    (e = Finished \/ (e = Stopped ValueError /\ fs' = fs) \/ (e = NoFile (results_name s) /\ sy_opens sy (results_name s) = false /\ fs' = fs)).
Proof.
  intros V F sy l s fs ftrain ftest train test Er E1 E2 E3 E4 G. destruct (C81_data V F sy (st_depth s) train test (gr_order _ _ _ _ G) (gr_train _ _ _ _ G) (gr_test _ _ _ _ G)) as [U _].
  destruct (proj2 U (gr_usable _ _ _ _ G)) as [wd E5]. destruct (gr_trees _ _ _ _ G wd E5) as [T K].
  pose proof (C81_input V F sy s train test wd (gr_order _ _ _ _ G) (gr_train _ _ _ _ G) (gr_test _ _ _ _ G) E5 (gr_rows _ _ _ _ G) (gr_labels _ _ _ _ G) T) as Si.
  destruct (prepared_fields _ _ _ _ _ _ _ E5) as [P1 P2].
  destruct (C70_script_returns wd (options_of s) Si K) as [bound Hb]; [rewrite P1; exact (gr_clock _ _ _ _ G)|rewrite P2; exact (gr_honest _ _ _ _ G)|].
  exists bound. intros fuel Hf. destruct (Hb fuel Hf) as (t & q & _ & _ & [(r1 & r2 & Em)|[Em _]]); unfold script; rewrite Er; unfold run; rewrite E1, E2, E3, E4, E5, Em; [|eexists _, _; split; [reflexivity|auto]].
  destruct (sy_opens sy (results_name s)) eqn:Eo; [|eexists _, _; split; [reflexivity|auto]]. destruct (lines_ok (sy_cut_time sy) r1 r2) as (names & l1 & l2 & E8 & _). rewrite E8. eexists _, _. split; [reflexivity|auto].
Qed.
Print Assumptions C82_returns.

(** If moreover the integer solver is optimal and float32 keeps CART's training samples on their side of its thresholds, the training accuracy reported for CG1 is at least that of CART. *)
Theorem C82_no_worse_than_cart : forall V F (sy : system V F) l s fs fs' fuel ftrain ftest train test,
  read_options (sy_int sy) l defaults = Ok (Some s) ->
  fs (st_train s) = Some ftrain -> sy_parse sy ftrain (st_sep s) (st_header s) = Ok train -> fs (st_test s) = Some ftest -> sy_parse sy ftest (st_sep s) (st_header s) = Ok test ->
  good_run sy s train test -> always_optimal (sy_solvers sy) ->
  (forall wd, prepare_data sy (st_depth s) train test = Ok wd -> converts (wd_single wd) (wd_X wd) /\ clean_cart (wd_single wd) (wd_X wd) (wd_final wd)) ->
  script sy (Some l) fuel fs = (Finished, fs') ->
  exists header l1 l2 a b, fs' (results_name s) = Some (sy_write sy [header; l1; l2]) /\
    under header l1 "name" (FText "CART") /\ under header l2 "name" (FText "CG1") /\
    under header l1 "train_accuracy" (FQ a) /\ under header l2 "train_accuracy" (FQ b) /\ (a <= b)%Q.
Proof.
  intros V F sy l s fs fs' fuel ftrain ftest train test Er E1 E2 E3 E4 G O C E.
  destruct (C81_data V F sy (st_depth s) train test (gr_order _ _ _ _ G) (gr_train _ _ _ _ G) (gr_test _ _ _ _ G)) as [U _].
  destruct (proj2 U (gr_usable _ _ _ _ G)) as [wd E5]. destruct (gr_trees _ _ _ _ G wd E5) as [T K]. destruct (C wd E5) as [C1 C2].
  pose proof (C81_input V F sy s train test wd (gr_order _ _ _ _ G) (gr_train _ _ _ _ G) (gr_test _ _ _ _ G) E5 (gr_rows _ _ _ _ G) (gr_labels _ _ _ _ G) T) as Si.
  destruct (prepared_fields _ _ _ _ _ _ _ E5) as [P1 P2].
  unfold script in E. rewrite Er in E. unfold run in E. rewrite E1, E2, E3, E4, E5 in E.
  destruct (main wd (options_of s) fuel) as [[r1 r2]|e|] eqn:Em; [|discriminate E..]. destruct (sy_opens sy (results_name s)); [|discriminate E].
  destruct (lines_ok (sy_cut_time sy) r1 r2) as (names & l1 & l2 & E8 & _ & _ & H3 & H4 & H5 & H6 & _). rewrite E8 in E. injection E as <-.
  exists (map FText names), l1, l2, (rs_train r1), (rs_train r2). split; [unfold store; rewrite String.eqb_refl; reflexivity|]. split; [exact H3|]. split; [exact H5|]. split; [exact (rp_train _ _ H4)|]. split; [exact (rp_train _ _ H6)|].
  assert (Et : exists t, ExpMainModel.train wd (options_of s) fuel = Done t) by (unfold main in Em; destruct (ExpMainModel.train wd (options_of s) fuel); [eauto|discriminate Em..]). destruct Et as [t Et].
  destruct (C70_trees wd (options_of s) fuel t Si Et) as (n & m & Hn & Hm & F1 & F2 & _). destruct (K n m Hn Hm) as [K1 K2].
  destruct (C70_no_worse_than_cart wd (options_of s) fuel t r1 r2 Si Et Em) as (code & _ & _ & _ & _ & _ & Hle & _).
  - rewrite F1. exact K1.
  - rewrite F1, F2. exact K2.
  - rewrite P1. exact (gr_clock _ _ _ _ G).
  - rewrite P2. exact (gr_honest _ _ _ _ G).
  - rewrite P2. exact O.
  - apply Hle; assumption.
Qed.
Print Assumptions C82_no_worse_than_cart.

(** The limit given by the last -i option is obeyed: no more iterations are reported. *)
Theorem C82_iterations : forall V F (sy : system V F) l s fs fs' fuel ftrain ftest train test k,
  read_options (sy_int sy) l defaults = Ok (Some s) ->
  fs (st_train s) = Some ftrain -> sy_parse sy ftrain (st_sep s) (st_header s) = Ok train -> fs (st_test s) = Some ftest -> sy_parse sy ftest (st_sep s) (st_header s) = Ok test ->
  good_run sy s train test -> script sy (Some l) fuel fs = (Finished, fs') ->
  number_arg (sy_int sy) ["-i"; "--iterations"]%string l (-1) k -> (0 < k)%Z ->
  exists header l1 l2 n, fs' (results_name s) = Some (sy_write sy [header; l1; l2]) /\
    under header l2 "name" (FText "CG1") /\ under header l2 "total_iterations" (FN n) /\ (Z.of_nat n <= k)%Z.
Proof.
  intros V F sy l s fs fs' fuel ftrain ftest train test k Er E1 E2 E3 E4 G E Hk Pk.
  destruct (C81_data V F sy (st_depth s) train test (gr_order _ _ _ _ G) (gr_train _ _ _ _ G) (gr_test _ _ _ _ G)) as [U _].
  destruct (proj2 U (gr_usable _ _ _ _ G)) as [wd E5]. destruct (gr_trees _ _ _ _ G wd E5) as [T _].
  pose proof (C81_input V F sy s train test wd (gr_order _ _ _ _ G) (gr_train _ _ _ _ G) (gr_test _ _ _ _ G) E5 (gr_rows _ _ _ _ G) (gr_labels _ _ _ _ G) T) as Si.
  unfold script in E. rewrite Er in E. unfold run in E. rewrite E1, E2, E3, E4, E5 in E.
  destruct (main wd (options_of s) fuel) as [[r1 r2]|e|] eqn:Em; [|discriminate E..]. destruct (sy_opens sy (results_name s)); [|discriminate E].
  destruct (lines_ok (sy_cut_time sy) r1 r2) as (names & l1 & l2 & E8 & _ & _ & _ & _ & H5 & H6 & _). rewrite E8 in E. injection E as <-.
  exists (map FText names), l1, l2, (rs_iterations r2). split; [unfold store; rewrite String.eqb_refl; reflexivity|]. split; [exact H5|]. split; [exact (rp_iterations _ _ H6)|].
  assert (Et : exists t, ExpMainModel.train wd (options_of s) fuel = Done t) by (unfold main in Em; destruct (ExpMainModel.train wd (options_of s) fuel); [eauto|discriminate Em..]). destruct Et as [t Et].
  destruct (C71_reported wd (options_of s) fuel t r1 r2 Si Et Em) as (_ & _ & Hle & _).
  assert (Ek : op_iterations (options_of s) = k).
  { pose proof (ak_iterations _ _ _ (proj1 (proj2 (C80_options (sy_int sy) l)) s Er)) as Hi. unfold number_arg in Hi, Hk. destruct (last_arg _ l); congruence. }
  rewrite Ek in Hle. apply Hle, Pk.
Qed.
Print Assumptions C82_iterations.

(** ** Cases *)
Inductive content := Data (t : table Z) | Lines (l : list (list field)).
Local Open Scope string_scope.
Definition case_system (opens : bool) : system Z content :=
  mkSystem Z content (fun a => if String.eqb a "1" then Some 1%Z else small_int a) (fun f _ _ => match f with Data t => Ok t | Lines _ => Err ValueError end) Z.ltb (fun v => Some (inject_Z v))
    (fun _ _ _ _ => stump 0 (1 # 2)) (fun _ _ _ => stump 0 (3 # 2)) (fun _ _ _ i => if (i =? 1)%nat then 0 else 1) (fun _ _ _ _ => stump 0 (3 # 2)) (fun q => q)
    (fun _ => 0%Q) (fun _ => 0%Q) (fun k => inject_Z (Z.of_nat k) / 10)%Q main_sv 0%Q Lines (fun _ => opens).
Definition case_train : table Z := mkTable ["size"; "kind"] [[0; 5]; [1; 7]; [2; 7]]%Z.
Definition case_test : table Z := mkTable ["size"; "kind"] [[0; 5]; [3; 5]]%Z.
Definition case_files : files := fun n => if String.eqb n "data/a.csv" then Some (Data case_train) else if String.eqb n "data/b.csv" then Some (Data case_test) else None.
Definition case_opts : list (string * string) := [("-T", "data/a.csv"); ("-t", "data/b.csv"); ("-d", "1"); ("-r", "x")].
Definition case_command : command := mkCommand "data/a.csv" "data/b.csv" 1 (-1) None "," (Some 0%Z) "results/x/".
Local Close Scope string_scope.
Lemma case_read b : read_options (sy_int (case_system b)) case_opts defaults = Ok (Some case_command).
Proof. vm_compute. reflexivity. Qed.
Lemma case_prepare b : prepare_data (case_system b) 1 case_train case_test = Ok fast.
Proof. reflexivity. Qed.
Lemma z_order : strict_order Z.ltb.
Proof. constructor; [intros; apply Z.ltb_irrefl|intros a b c; rewrite !Z.ltb_lt; lia|intros a b; rewrite !Z.ltb_ge; lia]. Qed.
Lemma case_good b : good_run (case_system b) case_command case_train case_test.
Proof.
  assert (P : forall r, proper (mkTable ["size"; "kind"]%string r) <-> Forall (fun x : list Z => length x = 2) r).
  { intros r. unfold proper. cbn [tb_columns tb_rows length]. split; [tauto|]. intros H. split; [lia|]. split; [repeat constructor; cbn; intuition discriminate|exact H]. }
  assert (Pt : proper case_train) by (apply P; repeat constructor). assert (Pe : proper case_test) by (apply P; repeat constructor).
  constructor; auto.
  - exact z_order.
  - apply (C81_data Z content (case_system b) 1 case_train case_test z_order Pt Pe). exists fast. apply case_prepare.
  - discriminate.
  - exists [0; 5]%Z, [1; 7]%Z, 5%Z, 7%Z. cbn. repeat split; auto. discriminate.
  - intros wd E. change (st_depth case_command) with 1%Z in E. rewrite case_prepare in E. injection E as <-. split; [|apply main_kept].
    split; [intros; apply stump_for; cbn; lia|]. split; [apply stump_for; cbn; lia|]. split; [intros; apply stump_for; cbn; lia|]. exists 0, 0, (3 # 2)%Q. apply stump_tests. auto.
  - intros a c H. cbn. lra.
  - apply two_honest.
Qed.
Lemma case_run b x : main fast plain 9 = x -> script (case_system b) (Some case_opts) 9 case_files =
  match x with
  | Raised e => (Stopped e, case_files)
  | NoFuel => (Endless, case_files)
  | Done (r1, r2) => if b then match results_lines 0 r1 r2 with Ok ls => (Finished, store (results_name case_command) (Lines ls) case_files) | Err e => (Stopped e, store (results_name case_command) (Lines []) case_files) end
                     else (NoFile (results_name case_command), case_files)
  end.
Proof.
  intros E. unfold script. rewrite case_read. unfold run. change (case_files (st_train case_command)) with (Some (Data case_train)). change (case_files (st_test case_command)) with (Some (Data case_test)).
  cbn [sy_parse case_system]. change (prepare_data _ (st_depth case_command) _ _) with (prepare_data (case_system b) 1 case_train case_test). rewrite case_prepare. change (options_of case_command) with plain. rewrite E. reflexivity.
Qed.
Lemma case_name : results_name case_command = "results/x/T_a.csv_d_1_results.csv"%string.
Proof. vm_compute. reflexivity. Qed.
(** The script's run on [PropMain.fast]: it finishes and writes the accuracies 2/3 and 1. *)
Example C82_case : exists fs' header l1 l2 a b, script (case_system true) (Some case_opts) 9 case_files = (Finished, fs') /\
  good_run (case_system true) case_command case_train case_test /\ always_optimal (sy_solvers (case_system true)) /\ converts (wd_single fast) (wd_X fast) /\ clean_cart (wd_single fast) (wd_X fast) (wd_final fast) /\
  fs' "results/x/T_a.csv_d_1_results.csv"%string = Some (Lines [header; l1; l2]) /\
  under header l1 "train_accuracy" (FQ a) /\ under header l2 "train_accuracy" (FQ b) /\ (a == 2 # 3)%Q /\ (b == 1)%Q.
Proof.
  pose proof fast_main as Hm. destruct (main fast plain 9) as [[r1 r2]|e|] eqn:E; [|exfalso; exact Hm|exfalso; exact Hm]. rewrite !andb_true_iff in Hm. destruct Hm as ((((M1 & M2) & _) & _) & _). apply Qeq_bool_iff in M1, M2.
  destruct (lines_ok 0 r1 r2) as (names & l1 & l2 & E8 & _ & _ & _ & H4 & _ & H6 & _). pose proof (case_run true _ E) as Er. cbv beta iota in Er. rewrite E8, case_name in Er. clear E.
  eexists _, (map FText names), l1, l2, (rs_train r1), (rs_train r2). split; [exact Er|]. split; [apply case_good|]. split; [apply two_optimal|]. split; [exact (proj1 C72_case_run)|]. split; [exact (proj2 C72_case_run)|].
  split; [reflexivity|]. split; [exact (rp_train _ _ H4)|]. split; [exact (rp_train _ _ H6)|]. split; assumption.
Qed.
(** With -i 1 the same run stops after one iteration and still writes the file. *)
Definition case_limited : command := mkCommand "data/a.csv" "data/b.csv" 1 1 None "," (Some 0%Z) "results/x/".
Lemma limited_good : good_run (case_system true) case_limited case_train case_test.
Proof.
  destruct (case_good true) as [G1 G2 G3 G4 G5 G6 G7 G8 G9]. constructor; auto.
Qed.
Lemma limited_main : match main fast (mkOptions 1 1 None) 9 with Done (r1, r2) => rs_iterations r2 = 1 | _ => False end.
Proof. vm_compute. reflexivity. Qed.
Lemma limited_run x : main fast (mkOptions 1 1 None) 9 = x -> script (case_system true) (Some (case_opts ++ [("-i", "1")]%string)) 9 case_files =
  match x with
  | Raised e => (Stopped e, case_files)
  | NoFuel => (Endless, case_files)
  | Done (r1, r2) => match results_lines 0 r1 r2 with Ok ls => (Finished, store (results_name case_limited) (Lines ls) case_files) | Err e => (Stopped e, store (results_name case_limited) (Lines []) case_files) end
  end.
Proof.
  intros E. unfold script. replace (read_options _ (case_opts ++ _) defaults) with (@Ok (option command) (Some case_limited)) by (vm_compute; reflexivity).
  unfold run. change (case_files (st_train case_limited)) with (Some (Data case_train)). change (case_files (st_test case_limited)) with (Some (Data case_test)).
  cbn [sy_parse case_system]. change (prepare_data _ (st_depth case_limited) _ _) with (prepare_data (case_system true) 1 case_train case_test). rewrite case_prepare.
  change (options_of case_limited) with (mkOptions 1 1 None). rewrite E. reflexivity.
Qed.
Example C82_case_iterations : exists fs', script (case_system true) (Some (case_opts ++ [("-i", "1")]%string)) 9 case_files = (Finished, fs') /\
  good_run (case_system true) case_limited case_train case_test /\
  number_arg (sy_int (case_system true)) ["-i"; "--iterations"]%string (case_opts ++ [("-i", "1")]%string) (-1) 1.
Proof.
  pose proof limited_main as Hm. destruct (main fast (mkOptions 1 1 None) 9) as [[r1 r2]|e|] eqn:E; [|exfalso; exact Hm|exfalso; exact Hm].
  destruct (lines_ok 0 r1 r2) as (names & l1 & l2 & E8 & _). pose proof (limited_run _ E) as Er. cbv beta iota in Er. rewrite E8 in Er. clear E.
  eexists. split; [exact Er|]. split; [exact limited_good|]. vm_compute. reflexivity.
Qed.
(** The directory is missing: the training is lost. *)
Example C82_case_lost : script (case_system false) (Some case_opts) 9 case_files = (NoFile "results/x/T_a.csv_d_1_results.csv"%string, case_files).
Proof.
  pose proof fast_main as Hm. destruct (main fast plain 9) as [[r1 r2]|e|] eqn:E; [|exfalso; exact Hm|exfalso; exact Hm]. pose proof (case_run false _ E) as Er. cbv beta iota in Er. rewrite case_name in Er. exact Er.
Qed.
(** Two runs with different test files and limits, and training files of the same name, write the same file. *)
Definition opts_a : list (string * string) := [("-T", "data/a.csv"); ("-t", "b.csv"); ("-d", "3")]%string.
Definition opts_b : list (string * string) := [("-T", "old/a.csv"); ("-t", "c.csv"); ("-d", "3"); ("-s", "60")]%string.
Example C82_case_name : exists s s', asked small_int opts_a s /\ asked small_int opts_b s' /\
  st_train s <> st_train s' /\ st_test s <> st_test s' /\ st_time s <> st_time s' /\ results_name s = results_name s'.
Proof.
  eexists _, _. split; [apply read_asked; reflexivity|]. split; [apply read_asked; reflexivity|]. cbn [st_train st_test st_time]. split; [discriminate|]. split; [discriminate|]. split; [discriminate|]. vm_compute. reflexivity.
Qed.

(** C81: the label is the last column of each file, while the features are found by name.  Test data equal to the training data but for the order of
    their columns have the same samples and other labels. *)
Theorem C81_label_position_refuted : exists (sy : system Z content) train test wd, strict_order (sy_ltb sy) /\ proper train /\ proper test /\
  (exists label, In label (tb_columns train) /\ ~ is_feature train label /\ forall f, In f (tb_columns train) <-> In f (tb_columns test)) /\
  Forall2 (fun row row' => forall f v, in_column train row f v <-> in_column test row' f v) (tb_rows train) (tb_rows test) /\
  prepare_data sy 1 train test = Ok wd /\ wd_Xt wd = wd_X wd /\ wd_yt wd <> wd_y wd.
Proof.
  set (train := mkTable ["a"; "b"; "label"]%string [[0; 1; 0]; [1; 0; 1]]%Z). set (test := mkTable ["a"; "label"; "b"]%string [[0; 0; 1]; [1; 1; 0]]%Z).
  eexists (case_system true), train, test, _. split; [exact z_order|].
  assert (N : NoDup ["a"; "b"; "label"]%string /\ NoDup ["a"; "label"; "b"]%string) by (split; repeat constructor; cbn; intuition discriminate).
  split; [split; [cbn; lia|split; [apply N|repeat constructor]]|]. split; [split; [cbn; lia|split; [apply N|repeat constructor]]|].
  split. { exists "label"%string. split; [cbn; auto|]. split; [|intros f; cbn; tauto]. intros (i & Hi & H). cbn in Hi. destruct i as [|[|i]]; [discriminate H|discriminate H|lia]. }
  split; [|split; [reflexivity|split; [reflexivity|discriminate]]].
  assert (W : forall x y z f v, in_column train [x; y; z] f v <-> in_column test [x; z; y] f v).
  { intros x y z f v. unfold in_column. cbn [tb_columns train test]. split; intros (i & H1 & H2); destruct i as [|[|[|i]]]; cbn in H1, H2.
    - exists 0. auto.
    - exists 2. auto.
    - exists 1. auto.
    - destruct i; discriminate.
    - exists 0. auto.
    - exists 2. auto.
    - exists 1. auto.
    - destruct i; discriminate. }
  constructor; [apply W|]. constructor; [apply W|constructor].
Qed.
Print Assumptions C81_label_position_refuted.
(** C81: labels 5 and 7 get the codes 0 and 1. *)
Example C81_case : strict_order Z.ltb /\ proper case_train /\ proper case_test /\ usable (fun v => Some (inject_Z v)) 1 case_train case_test /\
  label_classes Z.ltb [5; 7; 7]%Z = [5; 7]%Z /\ encode Z.ltb [5; 7]%Z [5; 7; 7]%Z = Ok [0; 1; 1] /\ encode Z.ltb [5; 7]%Z [5; 6]%Z = Err ValueError /\
  exists wd, prepare_data (case_system true) 1 case_train case_test = Ok wd /\ wd_y wd = [0; 1; 1] /\ wd_yt wd = [0; 0].
Proof.
  destruct (case_good true) as [G1 G2 G3 G4 _ _ _ _ _]. split; [exact G1|]. split; [exact G2|]. split; [exact G3|]. split; [exact G4|]. split; [reflexivity|]. split; [reflexivity|]. split; [reflexivity|].
  exists fast. split; [apply case_prepare|]. split; reflexivity.
Qed.

(** C80: the options of the experiment script. *)
From Coq Require Import String Ascii.
From Verif Require Import Base ExpModel ExpMainModel ScriptModel SpecScript.
Open Scope nat_scope.

Lemma last_snoc names opts o a : last_arg names (opts ++ [(o, a)]) = if existsb (String.eqb o) names then Some a else last_arg names opts.
Proof. unfold last_arg. rewrite rev_app_distr. cbn [rev app find fst]. destruct (existsb (String.eqb o) names); reflexivity. Qed.
Lemma read_app ti a b s : read_options ti (a ++ b) s = let* r := read_options ti a s in match r with Some s' => read_options ti b s' | None => Ok None end.
Proof.
  revert s. induction a as [|[o x] a IH]; intros s; [reflexivity|]. cbn [app read_options]. destruct (read_option ti o x s) as [[s'|]|]; cbn [bind]; [apply IH|reflexivity|reflexivity].
Qed.
Local Ltac by_name o :=
  repeat match goal with
  | |- context [String.eqb o ?n] => destruct (String.eqb_spec o n); [subst o|]
  end.

Lemma step_ok ti o a s s' : read_option ti o a s = Ok (Some s') -> ~ is_help (o, a) /\ ~ bad_number ti (o, a).
Proof.
  unfold read_option, member, is_help, bad_number, int_of. cbn [existsb fst snd In]. by_name o; cbn [orb]; destruct (ti a); cbn [bind]; intros H; try discriminate H;
    (split; [try discriminate; try assumption|]); intros [H1 H2]; try discriminate H2; repeat destruct H1 as [H1|H1]; try contradiction; try discriminate H1; subst; try contradiction; congruence.
Qed.
Lemma step_none ti o a s : read_option ti o a s = Ok None <-> is_help (o, a).
Proof.
  unfold read_option, member, is_help, int_of. cbn [existsb fst]. by_name o; cbn [orb]; destruct (ti a); cbn [bind]; split; intros H; try discriminate H; try contradiction; reflexivity.
Qed.
Lemma step_err ti o a s e : read_option ti o a s = Err e <-> e = ValueError /\ bad_number ti (o, a).
Proof.
  unfold read_option, member, bad_number, int_of. cbn [existsb fst snd In]. by_name o; cbn [orb]; destruct (ti a) eqn:E; cbn [bind]; split; intros H; try discriminate H;
    try (injection H as <-; auto 20; fail);
    try (destruct H as (-> & H1 & H2); (discriminate H2 || reflexivity || (exfalso; repeat destruct H1 as [H1|H1]; try contradiction; try discriminate H1; subst; try contradiction; congruence))).
Qed.
Lemma step_asked ti opts o a s s' : asked ti opts s -> read_option ti o a s = Ok (Some s') -> asked ti (opts ++ [(o, a)]) s'.
Proof.
  intros [A1 A2 A3 A4 A5 A6 AL A7 A8] E. destruct s as [tr te d it tm se h dr]. unfold number_arg in A5, A6, A7, A8. unfold options_of in A6, A8. clear AL.
  cbn [st_train st_test st_sep st_dir st_depth st_iterations st_header st_time op_iterations] in *.
  unfold read_option, member, int_of in E. cbn [existsb] in E. revert E. by_name o; cbn [orb]; try (destruct (ti a) as [z|] eqn:Ez; cbn [bind]); intros E; try discriminate E; injection E as <-;
  constructor; unfold number_arg, options_of in *; rewrite ?last_snoc; cbn [existsb]; rewrite ?(proj2 (String.eqb_neq _ _)) by assumption; cbn [orb st_train st_test st_sep st_dir st_depth st_iterations st_header st_time op_iterations op_depth];
  try assumption; try reflexivity; cbn [String.eqb Ascii.eqb Bool.eqb or_else]; try assumption; try reflexivity.
  all: try (intros; apply Z2Nat.id; assumption).
  all: try (exists z; split; [exact Ez|]; destruct (Z.ltb_spec z 0); auto; fail).
  all: try (exists z; split; [exact Ez|]; unfold budget, pre_budget; cbn [op_time]; split; reflexivity).
Qed.
Lemma read_asked ti opts : forall s, read_options ti opts defaults = Ok (Some s) -> asked ti opts s.
Proof.
  induction opts as [|[o a] opts IH] using rev_ind; intros s E.
  - injection E as <-. constructor; try reflexivity.
    + exists 0%Z. split; [reflexivity|]. left. split; [lia|reflexivity].
    + exists 600%Z. split; [reflexivity|]. split; reflexivity.
  - rewrite read_app in E. destruct (read_options ti opts defaults) as [[s0|]|]; [|discriminate E|discriminate E]. cbn [bind read_options] in E.
    destruct (read_option ti o a s0) as [[s1|]|] eqn:E1; cbn [bind] in E; try discriminate E. injection E as <-. eapply step_asked; eauto.
Qed.

(** The options are read from left to right: the first -h ends the script, the first bad number raises ValueError; otherwise the last
    option of every kind counts and the others have their defaults. *)
Theorem C80_options : forall to_int opts, let r := read_options to_int opts defaults in
  ((exists s, r = Ok (Some s)) <-> Forall (fun oa => ~ is_help oa /\ ~ bad_number to_int oa) opts) /\
  (forall s, r = Ok (Some s) -> asked to_int opts s) /\
  (r = Ok None <-> exists before oa after, opts = before ++ oa :: after /\ is_help oa /\ Forall (fun x => ~ is_help x /\ ~ bad_number to_int x) before) /\
  (forall e, r = Err e <-> e = ValueError /\ exists before oa after, opts = before ++ oa :: after /\ bad_number to_int oa /\ Forall (fun x => ~ is_help x /\ ~ bad_number to_int x) before).
Proof.
  intros ti opts r. split; [|split; [apply read_asked|]]; subst r; generalize defaults.
  - induction opts as [|[o a] opts IH]; intros s0; cbn [read_options]; [split; [constructor|intros _; eauto]|].
    destruct (read_option ti o a s0) as [[s1|]|e] eqn:E; cbn [bind].
    + rewrite (IH s1). split; [intros H; constructor; [eapply step_ok; eauto|exact H]|intros H; inversion H; assumption].
    + split; [intros [s H]; discriminate H|]. intros H. inversion H as [|? ? [H1 _] _]; subst. exfalso. apply H1. apply (step_none ti o a s0). exact E.
    + split; [intros [s H]; discriminate H|]. intros H. inversion H as [|? ? [_ H1] _]; subst. exfalso. apply H1. apply (step_err ti o a s0 e). exact E.
  - assert (P : forall s0, (read_options ti opts s0 = Ok None <-> exists before oa after, opts = before ++ oa :: after /\ is_help oa /\ Forall (fun x => ~ is_help x /\ ~ bad_number ti x) before) /\
      (forall e, read_options ti opts s0 = Err e <-> e = ValueError /\ exists before oa after, opts = before ++ oa :: after /\ bad_number ti oa /\ Forall (fun x => ~ is_help x /\ ~ bad_number ti x) before)); [|exact P].
    induction opts as [|[o a] opts IH]; intros s0; cbn [read_options].
    + split; [split; [discriminate|intros ([|] & ? & ? & H & _); discriminate H]|]. intros e. split; [discriminate|intros (_ & [|] & ? & ? & H & _); discriminate H].
    + destruct (read_option ti o a s0) as [[s1|]|e1] eqn:E; cbn [bind].
      * pose proof (step_ok _ _ _ _ _ E) as G. destruct (IH s1) as [I1 I2]. split.
        -- rewrite I1. split; intros (b & x & c & H & H1 & H2); [exists ((o, a) :: b), x, c; split; [cbn; congruence|split; [exact H1|constructor; auto]]|].
           destruct b as [|y b]; [injection H as <- <-; exfalso; tauto|]. injection H as <- ->. exists b, x, c. inversion H2; auto.
        -- intros e. rewrite I2. split; (intros (-> & b & x & c & H & H1 & H2); split; [reflexivity|]); [exists ((o, a) :: b), x, c; split; [cbn; congruence|split; [exact H1|constructor; auto]]|].
           destruct b as [|y b]; [injection H as <- <-; exfalso; tauto|]. injection H as <- ->. exists b, x, c. inversion H2; auto.
      * pose proof (proj1 (step_none _ _ _ _) E) as G. split.
        -- split; [intros _|reflexivity]. exists [], (o, a), opts. auto.
        -- intros e. split; [discriminate|]. intros (_ & b & x & c & H & H1 & H2). exfalso. destruct b as [|y b].
           ++ injection H as <- <-. pose proof (proj2 (step_err ti o a s0 ValueError) (conj eq_refl H1)). congruence.
           ++ injection H as <- ->. inversion H2 as [|? ? [H3 _] _]; subst. apply H3. exact G.
      * pose proof (proj1 (step_err _ _ _ _ _) E) as [-> G]. split.
        -- split; [discriminate|]. intros (b & x & c & H & H1 & H2). exfalso. destruct b as [|y b].
           ++ injection H as <- <-. pose proof (proj2 (step_none ti o a s0) H1). congruence.
           ++ injection H as <- ->. inversion H2 as [|? ? [_ H3] _]; subst. apply H3. exact G.
        -- intros e. split; [intros H; injection H as <-; split; [reflexivity|]; exists [], (o, a), opts; auto|intros (-> & _); reflexivity].
Qed.
Print Assumptions C80_options.

(** A command line getopt rejects, -h, or a bad number end the script before any file is touched. *)
Theorem C80_ends_early : forall V F (sy : system V F) opts fuel fs, let r := script sy opts fuel fs in
  (opts = None -> r = (Exit 2, fs)) /\
  (forall l before oa after, opts = Some l -> l = before ++ oa :: after -> Forall (fun x => ~ is_help x /\ ~ bad_number (sy_int sy) x) before ->
     (is_help oa -> r = (Exit 0, fs)) /\ (bad_number (sy_int sy) oa -> r = (Stopped ValueError, fs))).
Proof.
  intros V F sy opts fuel fs r. split; [intros ->; reflexivity|]. intros l b x c -> Hl Hb. destruct (C80_options (sy_int sy) l) as (_ & _ & H1 & H2). subst r. unfold script. split; intros Hx.
  - rewrite (proj2 H1); [reflexivity|]. exists b, x, c. auto.
  - rewrite (proj2 (H2 ValueError)); [reflexivity|]. split; [reflexivity|]. exists b, x, c. auto.
Qed.
Print Assumptions C80_ends_early.

(** ** Cases *)
Definition small_int (s : string) : option Z :=
  match s with "3" => Some 3%Z | "5" => Some 5%Z | "60" => Some 60%Z | "-1" => Some (-1)%Z | _ => None end%string.
Example C80_case : read_options small_int [("-d", "3"); ("-T", "a.csv"); ("--time_limit", "60"); ("-H", "-1"); ("-T", "b.csv"); ("--depth", "5"); ("-r", "x")]%string defaults
  = Ok (Some (mkCommand "b.csv" "" 5 (-1) (Some 60%Z) "," None "results/x/")).
Proof. reflexivity. Qed.
Example C80_case_bad : bad_number small_int ("-d", "deep")%string /\ is_help ("-h", "")%string.
Proof. split; [split; [cbn; auto|reflexivity]|reflexivity]. Qed.

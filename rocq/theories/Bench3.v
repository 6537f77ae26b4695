(** * The benchmark programs: the Python pigeonhole generator and the Boolean queens *)

From Coq Require Import Ascii String Permutation.
From Verif Require Import Spec Outcome State ModelCounter ModelLearn ModelBuild ModelSearch TextSpec ModelText ModelRead EncodeSpec ModelEncode ModelB2f
  Text Read Encode EncodeMore FileUnique BenchSpec ModelBench Bench Bench2.
#[local] Open Scope char_scope.
#[local] Open Scope list_scope.
#[local] Open Scope Z_scope.

(** ** pigeonhole_script.py *)

Definition py_quads (n : Z) : list (Z * Z * Z * Z) :=
  flat_map (fun i => flat_map (fun j => flat_map (fun d => if d =? j then [] else [(j, i, d, i)]) (loop j (n + 1))) (loop 1 (n + 1))) (loop 0 (n - 1)).

Lemma py_flat n : flat (fun i => flat (fun j => flat (fun d => if d =? j then [] else LF :: ne_line j i d i) (loop j (n + 1))) (loop 1 (n + 1))) (loop 0 (n - 1)) =
  flat (fun q => LF :: qline q) (py_quads n).
Proof.
  unfold py_quads. rewrite <- flat_flat. apply flat_ext. intro i. rewrite <- flat_flat. apply flat_ext. intro j.
  rewrite <- flat_flat. apply flat_ext. intro d. destruct (d =? j); [reflexivity|]. unfold flat. cbn. rewrite app_nil_r. reflexivity.
Qed.

Lemma in_py_quads n x d y e : In (x, d, y, e) (py_quads n) <-> d = e /\ 0 <= d < n - 1 /\ 1 <= x < y /\ y <= n.
Proof.
  unfold py_quads. rewrite in_flat_map. split.
  - intros (i & Hi & H). apply in_flat_map in H. destruct H as (j & Hj & H). apply in_flat_map in H. destruct H as (d' & Hd & H).
    destruct (Z.eqb_spec d' j); [destruct H|]. destruct H as [H|[]]. injection H as -> -> -> <-. apply in_loop in Hi, Hj, Hd. lia.
  - intros (-> & H1 & H2). exists e. split; [apply in_loop; lia|]. apply in_flat_map. exists x. split; [apply in_loop; lia|].
    apply in_flat_map. exists y. split; [apply in_loop; lia|]. destruct (Z.eqb_spec y x); [lia|left; auto].
Qed.

Definition py_lines_of (n : Z) : list text := pigeon_comment n :: hline n (((n - 1) ^ 2 * n) / 2) :: map qline (py_quads n).

Lemma flat_before {A} (f : A -> text) : forall l u, u ++ flat (fun x => LF :: f x) l ++ [LF] = unlines (u :: map f l).
Proof.
  induction l as [|x l IH]; intro u; [unfold unlines; cbn; rewrite app_nil_r; reflexivity|]. cbn [map]. rewrite unlines_cons, <- IH.
  unfold flat. cbn [map List.concat]. rewrite <- !app_assoc. reflexivity.
Qed.

Lemma py_has n : has_lines (pigeon_py n) (py_lines_of n).
Proof.
  split.
  - intros l [<-|[<-|Hl]]; [apply pigeon_comment_fine|apply hline_no_lf|]. apply in_map_iff in Hl. destruct Hl as (q & <- & _). apply qline_no_lf.
  - right. split.
    + unfold pigeon_py, py_lines_of. rewrite py_flat, unlines_cons, <- flat_before. unfold hline. rewrite <- !app_assoc. reflexivity.
    + unfold py_lines_of. assert (G : forall ls : list text, (forall l, In l ls -> l <> []) -> ls <> [] -> last ls [] <> []).
      { induction ls as [|l ls IH]; intros H N; [congruence|]. destruct ls as [|l2 ls]; [apply H; left; auto|].
        change (last (l :: l2 :: ls) []) with (last (l2 :: ls) (@nil ascii)). apply IH; [intros; apply H; right; auto|discriminate]. }
      apply G; [|discriminate]. intros l [<-|[<-|Hl]]; try discriminate. apply in_map_iff in Hl. destruct Hl as (q & <- & _).
      intro E. pose proof (qline_line q) as W. unfold clause_line in W. rewrite E in W. destruct q as (((x & d) & y) & e). discriminate.
Qed.

Lemma qreads n D q : qfine n D q -> n <= int_max -> D <= int_max -> reads (qline q) (ICls (qclause q)).
Proof.
  intros H Hn HD g. destruct q as (((x & d) & y) & e). cbn [qfine] in H.
  apply read_open_line; [right; apply qline_line|discriminate|].
  intros l [<-|[<-|[]]]; unfold int_ok; cbn [lvar lval]; lia.
Qed.

Lemma qreads_all n D qs : (forall q, In q qs -> qfine n D q) -> n <= int_max -> D <= int_max -> Forall2 reads (map qline qs) (map ICls (map qclause qs)).
Proof.
  intros H Hn HD. induction qs as [|q qs IH]; constructor; [apply (qreads n D); auto; apply H; left; auto|apply IH; intros; apply H; right; auto].
Qed.

Theorem py_read n : 2 <= n <= int_max -> (n - 1) * (n * (n - 1)) <= 2 * int_max ->
  read_file (pigeon_py n) = Ok (map ICls (map qclause (py_quads n))).
Proof.
  intros Hn Hc. assert (F : forall q, In q (py_quads n) -> qfine n (n - 1) q).
  { intros (((x & d) & y) & e) H. apply in_py_quads in H. cbn. lia. }
  assert (HM : 0 <= ((n - 1) ^ 2 * n) / 2 <= int_max).
  { rewrite pigeon_number by lia. pose proof (pigeon_count n (n - 1) ltac:(lia) ltac:(lia)). lia. }
  unfold read_file. rewrite (getlines_has _ _ (py_has n)).
  - apply read_lines_skip.
    + intros l [<-|[<-|Hl]] Hp; [discriminate|apply hline_problem; lia|]. apply in_map_iff in Hl. destruct Hl as (q & <- & _).
      destruct (qline_kind q) as (_ & E). congruence.
    + unfold py_lines_of. cbn [filter]. change (keep (pigeon_comment n)) with false.
      change (fun l => negb (is_comment l || is_problem l)) with keep. change (keep (hline n _)) with false. cbn iota. rewrite keep_q.
      apply (qreads_all n (n - 1)); auto; lia.
  - intros l [<-|[<-|Hl]]; unfold short; [apply pigeon_comment_short; lia|apply hline_short; lia|].
    apply in_map_iff in Hl. destruct Hl as (q & <- & Hq). apply (qline_short n (n - 1)); auto; lia.
Qed.

Lemma py_first n : 2 <= n -> exists qs, py_quads n = (1, 0, 2, 0) :: qs.
Proof.
  intro Hn. unfold py_quads. rewrite (loop_cons 0) by lia. cbn [flat_map]. rewrite (loop_cons 1) by lia. cbn [flat_map].
  rewrite (loop_cons 1) by lia. cbn [flat_map]. change (1 =? 1) with true. cbn iota. rewrite (loop_cons (1 + 1)) by lia. cbn [flat_map].
  change (1 + 1 =? 1) with false. cbn iota. eexists. reflexivity.
Qed.

Theorem py_undefined n fuel m c clk r : 2 <= n <= int_max -> (n - 1) * (n * (n - 1)) <= 2 * int_max ->
  solve_file fuel m c clk r (pigeon_py n) = Undef OobAtom.
Proof.
  intros Hn Hc. unfold solve_file, build_file. rewrite py_read by auto. destruct (py_first n) as (qs & ->); [lia|]. cbn [bind map qclause].
  unfold build. cbn [foldM add_item]. destruct c as [h w len]. destruct h, w; reflexivity.
Qed.

(** ** nqueens_sat.cc *)

Lemma nth_loop {A} (f : Z -> A) (d : A) M j : 0 <= j < M -> nth (Z.to_nat j) (map f (loop 0 M)) d = f j.
Proof.
  intro H. unfold loop. rewrite map_map. replace j with (0 + Z.of_nat (Z.to_nat j)) at 2 by lia.
  rewrite (nth_indep _ d (f (0 + Z.of_nat 0))) by (rewrite map_length, seq_length; lia).
  rewrite (map_nth (fun k => f (0 + Z.of_nat k))). rewrite seq_nth by lia. f_equal.
Qed.

Lemma in_less_equal f M c : In c (less_equal_one (map f (loop 0 M))) <-> exists j k, 0 <= j /\ j < k /\ k < M /\ c = [- f j; - f k].
Proof.
  unfold less_equal_one. rewrite in_flat_map. rewrite map_length, loop_length. split.
  - intros (j & Hj & H). apply in_map_iff in H. destruct H as (k & <- & Hk). apply in_loop in Hj, Hk.
    exists j, k. repeat split; try lia. rewrite !nth_loop by lia. reflexivity.
  - intros (j & k & H1 & H2 & H3 & ->). exists j. split; [apply in_loop; lia|]. apply in_map_iff. exists k. split; [|apply in_loop; lia].
    rewrite !nth_loop by lia. reflexivity.
Qed.

Lemma in_family f lo hi (M : Z -> Z) c : In c (flat_map (fun i => less_equal_one (map (f i) (loop 0 (M i)))) (loop lo hi)) <->
  exists i j k, lo <= i < hi /\ 0 <= j /\ j < k /\ k < M i /\ c = [- f i j; - f i k].
Proof.
  rewrite in_flat_map. split.
  - intros (i & Hi & H). apply in_loop in Hi. apply in_less_equal in H. destruct H as (j & k & H). exists i, j, k. tauto.
  - intros (i & j & k & Hi & H). exists i. split; [apply in_loop; auto|]. apply in_less_equal. eauto.
Qed.

Lemma in_rows f N c : In c (flat_map (fun i => equal_one (map (f i) (loop 0 N))) (loop 0 N)) <->
  exists i, 0 <= i < N /\ (c = map (f i) (loop 0 N) \/ exists j k, 0 <= j /\ j < k /\ k < N /\ c = [- f i j; - f i k]).
Proof.
  rewrite in_flat_map. split.
  - intros (i & Hi & H). apply in_loop in Hi. exists i. split; auto. destruct H as [<-|H]; auto. right. apply in_less_equal in H. exact H.
  - intros (i & Hi & H). exists i. split; [apply in_loop; auto|]. destruct H as [->|H]; [left; auto|]. right. apply in_less_equal. exact H.
Qed.

Lemma in_sat N c : In c (sat_cnf N) <->
  (exists i, 0 <= i < N /\ (c = map (fun j => var_name N i j) (loop 0 N) \/ exists j k, 0 <= j /\ j < k /\ k < N /\ c = [- var_name N i j; - var_name N i k])) \/
  (exists i, 0 <= i < N /\ (c = map (fun j => var_name N j i) (loop 0 N) \/ exists j k, 0 <= j /\ j < k /\ k < N /\ c = [- var_name N j i; - var_name N k i])) \/
  (exists i j k, 0 <= i < N - 1 /\ 0 <= j /\ j < k /\ k < N - i /\ c = [- var_name N j (i + j); - var_name N k (i + k)]) \/
  (exists i j k, 1 <= i < N - 1 /\ 0 <= j /\ j < k /\ k < N - i /\ c = [- var_name N (j + i) j; - var_name N (k + i) k]) \/
  (exists i j k, 0 <= i < N - 1 /\ 0 <= j /\ j < k /\ k < N - i /\ c = [- var_name N j (N - 1 - (i + j)); - var_name N k (N - 1 - (i + k))]) \/
  (exists i j k, 1 <= i < N - 1 /\ 0 <= j /\ j < k /\ k < N - i /\ c = [- var_name N (j + i) (N - 1 - j); - var_name N (k + i) (N - 1 - k)]).
Proof.
  unfold sat_cnf. rewrite !in_app_iff.
  rewrite (in_rows (fun i j => var_name N i j)), (in_rows (fun i j => var_name N j i)).
  rewrite (in_family (fun i j => var_name N j (i + j)) 0 (N - 1) (fun i => N - i)), (in_family (fun i j => var_name N (j + i) j) 1 (N - 1) (fun i => N - i)).
  rewrite (in_family (fun i j => var_name N j (N - 1 - (i + j))) 0 (N - 1) (fun i => N - i)), (in_family (fun i j => var_name N (j + i) (N - 1 - j)) 1 (N - 1) (fun i => N - i)).
  reflexivity.
Qed.

Lemma var_pos N i j : 0 <= i < N -> 0 <= j < N -> 1 <= var_name N i j <= N * N.
Proof. intros. unfold var_name. nia. Qed.

Lemma pair_holds b u v : 0 < u -> 0 < v -> (exists z, In z [- u; - v] /\ bool_holds b z) <-> ~ (b u = true /\ b v = true).
Proof.
  intros Hu Hv. unfold bool_holds. split.
  - intros (z & [<-|[<-|[]]] & H) (B1 & B2); rewrite (proj2 (Z.ltb_ge 0 _)) in H by lia; rewrite Z.opp_involutive in H; congruence.
  - intro H. destruct (b u) eqn:E; [|exists (- u)]; [destruct (b v) eqn:E'; [tauto|exists (- v)]|].
    + split; [right; left; auto|]. rewrite (proj2 (Z.ltb_ge 0 _)) by lia. rewrite Z.opp_involutive. auto.
    + split; [left; auto|]. rewrite (proj2 (Z.ltb_ge 0 _)) by lia. rewrite Z.opp_involutive. auto.
Qed.

Lemma some_holds b f N : (forall j, 0 <= j < N -> 0 < f j) -> (exists z, In z (map f (loop 0 N)) /\ bool_holds b z) <-> exists j, 0 <= j < N /\ b (f j) = true.
Proof.
  intro P. unfold bool_holds. split.
  - intros (z & Hz & H). apply in_map_iff in Hz. destruct Hz as (j & <- & Hj). apply in_loop in Hj. exists j. split; auto.
    rewrite (proj2 (Z.ltb_lt 0 _)) in H by (apply P; auto). exact H.
  - intros (j & Hj & H). exists (f j). split; [apply in_map; apply in_loop; auto|]. rewrite (proj2 (Z.ltb_lt 0 _)) by (apply P; auto). exact H.
Qed.

Theorem sat_board N b : 0 <= N -> cnf_holds b (sat_cnf N) <-> queens_board N (fun i j => b (var_name N i j)).
Proof.
  intro HN. unfold cnf_holds, queens_board. split.
  - intro H. split; [|split].
    + intros i Hi. apply (some_holds b (fun j => var_name N i j) N); [intros j Hj; pose proof (var_pos N i j Hi Hj); lia|].
      apply H. apply in_sat. left. exists i. auto.
    + intros j Hj. apply (some_holds b (fun i => var_name N i j) N); [intros i Hi; pose proof (var_pos N i j Hi Hj); lia|].
      apply H. apply in_sat. right. left. exists j. auto.
    + (* wlog the first square is the lower one *)
      assert (G : forall i j k l, 0 <= i < N -> 0 <= j < N -> 0 <= k < N -> 0 <= l < N -> b (var_name N i j) = true -> b (var_name N k l) = true ->
                    i < k \/ i = k /\ j < l -> ~ queen_attacks i j k l).
      { intros i j k l Hi Hj Hk Hl B1 B2 O Q.
        pose proof (var_pos N i j Hi Hj) as P1. pose proof (var_pos N k l Hk Hl) as P2.
        apply (proj1 (pair_holds b (var_name N i j) (var_name N k l) ltac:(lia) ltac:(lia))); [|split; auto].
        apply H. apply in_sat. unfold queen_attacks in Q. destruct O as [O|(<- & O)].
        2:{ left. exists i. split; auto. right. exists j, l. repeat split; lia || auto. }
        destruct Q as [Q|[<-|Q]]; [lia| |].
        { right. left. exists j. split; auto. right. exists i, k. repeat split; lia || auto. }
        assert (D : l - j = k - i \/ j - l = k - i) by lia. destruct D as [D|D].
        - destruct (Z_lt_le_dec j i).
          + right. right. right. left. exists (i - j), j, l. repeat split; try lia. do 2 f_equal; [|f_equal]; f_equal; lia.
          + right. right. left. exists (j - i), i, k. repeat split; try lia. do 2 f_equal; [|f_equal]; f_equal; lia.
        - destruct (Z_lt_le_dec (N - 1) (i + j)).
          + right. right. right. right. right. exists (i + j - (N - 1)), (N - 1 - j), (N - 1 - l). repeat split; try lia. do 2 f_equal; [|f_equal]; f_equal; lia.
          + right. right. right. right. left. exists (N - 1 - j - i), i, k. repeat split; try lia. do 2 f_equal; [|f_equal]; f_equal; lia. }
      intros i j k l Hi Hj Hk Hl B1 B2 N2. destruct (Z_lt_le_dec i k); [apply G; auto; lia|]. destruct (Z.eq_dec i k) as [<-|].
      * assert (j <> l) by (intros <-; congruence). destruct (Z_lt_le_dec j l); [apply G; auto; lia|].
        intro Q. apply (G i l i j); auto; [lia|]. unfold queen_attacks in *. lia.
      * intro Q. apply (G k l i j); auto; [lia|]. unfold queen_attacks in *. lia.
  - intros (R & C & A) c Hc. apply in_sat in Hc.
    assert (P : forall i j k l, 0 <= i < N -> 0 <= j < N -> 0 <= k < N -> 0 <= l < N -> (i, j) <> (k, l) -> queen_attacks i j k l ->
                  exists z, In z [- var_name N i j; - var_name N k l] /\ bool_holds b z).
    { intros i j k l Hi Hj Hk Hl Ne Q. pose proof (var_pos N i j Hi Hj) as P1. pose proof (var_pos N k l Hk Hl) as P2.
      apply pair_holds; try lia. intros (B1 & B2). apply (A i j k l); auto. }
    destruct Hc as [(i & Hi & [->|(j & k & H1 & H2 & H3 & ->)])|[(i & Hi & [->|(j & k & H1 & H2 & H3 & ->)])|[(i & j & k & H0 & H1 & H2 & H3 & ->)|[(i & j & k & H0 & H1 & H2 & H3 & ->)|
      [(i & j & k & H0 & H1 & H2 & H3 & ->)|(i & j & k & H0 & H1 & H2 & H3 & ->)]]]]].
    + apply (some_holds b (fun j => var_name N i j) N); [intros j Hj; pose proof (var_pos N i j Hi Hj); lia|]. apply R. auto.
    + apply P; try lia; [intro E; injection E; lia|left; lia].
    + apply (some_holds b (fun j => var_name N j i) N); [intros j Hj; pose proof (var_pos N j i Hj Hi); lia|]. apply C. auto.
    + apply P; try lia; [intro E; injection E; lia|right; left; lia].
    + apply P; try lia; [intro E; injection E; lia|right; right; lia].
    + apply P; try lia; [intro E; injection E; lia|right; right; lia].
    + apply P; try lia; [intro E; injection E; lia|right; right; lia].
    + apply P; try lia; [intro E; injection E; lia|right; right; lia].
Qed.

Lemma sat_bool N : 1 <= N -> bool_cnf (N * N) (sat_cnf N).
Proof.
  intro HN. split.
  - intros c Hc. apply in_sat in Hc.
    assert (P : forall i j k l, 0 <= i < N -> 0 <= j < N -> 0 <= k < N -> 0 <= l < N ->
                  [- var_name N i j; - var_name N k l] <> [] /\ forall z, In z [- var_name N i j; - var_name N k l] -> 1 <= Z.abs z <= N * N).
    { intros i j k l Hi Hj Hk Hl. pose proof (var_pos N i j Hi Hj). pose proof (var_pos N k l Hk Hl). split; [discriminate|].
      intros z [<-|[<-|[]]]; lia. }
    destruct Hc as [(i & Hi & [->|(j & k & H1 & H2 & H3 & ->)])|[(i & Hi & [->|(j & k & H1 & H2 & H3 & ->)])|[(i & j & k & H0 & H1 & H2 & H3 & ->)|[(i & j & k & H0 & H1 & H2 & H3 & ->)|
      [(i & j & k & H0 & H1 & H2 & H3 & ->)|(i & j & k & H0 & H1 & H2 & H3 & ->)]]]]]; try (apply P; lia).
    + split; [rewrite loop_cons by lia; discriminate|]. intros z Hz. apply in_map_iff in Hz. destruct Hz as (j & <- & Hj). apply in_loop in Hj.
      pose proof (var_pos N i j Hi Hj). lia.
    + split; [rewrite loop_cons by lia; discriminate|]. intros z Hz. apply in_map_iff in Hz. destruct Hz as (j & <- & Hj). apply in_loop in Hj.
      pose proof (var_pos N j i Hj Hi). lia.
  - intros v Hv. exists (map (fun j => var_name N ((v - 1) / N) j) (loop 0 N)), v.
    pose proof (Z.mod_pos_bound (v - 1) N ltac:(lia)). pose proof (Z.div_mod (v - 1) N ltac:(lia)) as DM.
    assert (0 <= (v - 1) / N < N) by (split; [apply Z.div_pos; lia|apply Z.div_lt_upper_bound; lia]).
    split; [|split; [|lia]].
    + apply in_sat. left. exists ((v - 1) / N). auto.
    + apply in_map_iff. exists ((v - 1) mod N). split; [|apply in_loop; lia]. unfold var_name. lia.
Qed.

Lemma var_inj N i j k l : 0 <= j < N -> 0 <= l < N -> var_name N i j = var_name N k l -> i = k /\ j = l.
Proof. unfold var_name. intros Hj Hl E. assert (i = k) by nia. subst k. lia. Qed.

Lemma sat_nodup N c : 1 <= N -> In c (sat_cnf N) -> NoDup c.
Proof.
  intros HN Hc. apply in_sat in Hc.
  assert (P : forall i j k l, 0 <= j < N -> 0 <= l < N -> (i, j) <> (k, l) -> NoDup [- var_name N i j; - var_name N k l]).
  { intros i j k l Hj Hl Ne. constructor; [|constructor; auto; constructor]. intros [E|[]].
    assert (E' : var_name N i j = var_name N k l) by lia. apply var_inj in E'; auto. destruct E'. congruence. }
  assert (Q : forall f : Z -> Z, (forall j k, In j (loop 0 N) -> In k (loop 0 N) -> f j = f k -> j = k) -> NoDup (map f (loop 0 N))).
  { intros f If. pose proof (loop_nodup 0 N) as ND. revert If ND. generalize (loop 0 N). induction l as [|x l IH]; intros If ND; cbn; constructor; inversion ND; subst.
    - intro Hin. apply in_map_iff in Hin. destruct Hin as (y & E & Hy). apply If in E; [subst; auto|right; auto|left; auto].
    - apply IH; auto. intros j k Hj Hk. apply If; right; auto. }
  destruct Hc as [(i & Hi & [->|(j & k & H1 & H2 & H3 & ->)])|[(i & Hi & [->|(j & k & H1 & H2 & H3 & ->)])|[(i & j & k & H0 & H1 & H2 & H3 & ->)|[(i & j & k & H0 & H1 & H2 & H3 & ->)|
      [(i & j & k & H0 & H1 & H2 & H3 & ->)|(i & j & k & H0 & H1 & H2 & H3 & ->)]]]]]; try (apply P; [lia|lia|intro E; injection E; lia]).
  - apply Q. intros j k Hj Hk E. apply in_loop in Hj, Hk. apply var_inj in E; tauto.
  - apply Q. intros j k Hj Hk E. apply in_loop in Hj, Hk. apply var_inj in E; tauto.
Qed.

Definition zline (c : list Z) : text := flat (fun z => num z ++ txt " ") c ++ txt " 0".
Definition sat_body (N : Z) : text := unlines (hline (N * N) (Z.of_nat (length (sat_cnf N))) :: map zline (sat_cnf N)).

Lemma sat_text N : sat_file N = sat_body N ++ [LF].
Proof.
  unfold sat_file, sat_body. rewrite unlines_cons. unfold hline.
  replace (flat (fun c => flat (fun z => num z ++ txt " ") c ++ txt " 0" ++ [LF]) (sat_cnf N)) with (unlines (map zline (sat_cnf N))).
  - rewrite <- !app_assoc. reflexivity.
  - rewrite <- flat_unlines. apply flat_ext. intro c. unfold zline. rewrite <- app_assoc. reflexivity.
Qed.

Lemma flat_nums c : flat (fun z => num z ++ txt " ") c = List.concat (map (fun w => w ++ [SP]) (map num c)).
Proof. rewrite map_map. reflexivity. Qed.

Lemma zline_words c : words (zline c) = map num c ++ [txt "0"].
Proof.
  unfold zline. rewrite flat_nums.
  rewrite words_row.
  - reflexivity.
  - intros w Hw. apply in_map_iff in Hw. destruct Hw as (z & <- & _). apply num_solid.
Qed.

Lemma zline_no_lf c : ~ In LF (zline c).
Proof.
  unfold zline. rewrite flat_nums. apply no_lf_app; [|cbn; intuition discriminate].
  apply in_row_lf. intros w Hw. apply in_map_iff in Hw. destruct Hw as (z & <- & _). apply num_no_lf.
Qed.

Lemma sat_has N : has_lines (sat_body N) (hline (N * N) (Z.of_nat (length (sat_cnf N))) :: map zline (sat_cnf N)).
Proof.
  split; [|left; reflexivity]. intros l [<-|Hl]; [apply hline_no_lf|]. apply in_map_iff in Hl. destruct Hl as (c & <- & _). apply zline_no_lf.
Qed.

Theorem sat_dimacs N : dimacs (N * N) (Z.of_nat (length (sat_cnf N))) (sat_cnf N) (sat_body N).
Proof.
  eexists _, _. split; [apply sat_has|]. split; [apply hline_words|]. induction (sat_cnf N) as [|c f IH]; constructor; auto. apply zline_words.
Qed.

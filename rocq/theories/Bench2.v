(** * The benchmark programs: counts, amazons, the Python generator *)

From Coq Require Import Ascii String Permutation.
From Verif Require Import Spec Outcome State ModelCounter ModelBuild ModelSearch TextSpec ModelText ModelRead EncodeSpec ModelEncode Text Read Encode EncodeMore FileUnique BenchSpec ModelBench Bench.
#[local] Open Scope char_scope.
#[local] Open Scope list_scope.
#[local] Open Scope Z_scope.

(** ** The number of clauses of the queens problem *)

Lemma flat_map_bound {A B} (g : A -> list B) k l : (forall x, In x l -> (length (g x) <= k)%nat) -> (length (flat_map g l) <= length l * k)%nat.
Proof.
  induction l as [|x l IH]; intro H; auto. cbn [flat_map]. rewrite app_length. specialize (H x (or_introl eq_refl)) as Hx.
  specialize (IH ltac:(intros; apply H; right; auto)). cbn. lia.
Qed.

Lemma loop_nodup i j : NoDup (loop i j).
Proof. unfold loop. apply FinFun.Injective_map_NoDup; [intros a b; lia|apply seq_NoDup]. Qed.

Lemma pick_two {A} (f : Z -> A) (c : Z -> bool) u v l : NoDup l -> (forall x, c x = true -> x = u \/ x = v) ->
  (length (flat_map (fun x => if c x then [f x] else []) l) <= 2)%nat.
Proof.
  intros N H. assert (E : length (flat_map (fun x => if c x then [f x] else []) l) = length (filter c l)).
  { clear. induction l as [|x l IH]; auto. cbn [flat_map filter]. rewrite app_length, IH. destruct (c x); reflexivity. }
  rewrite E. change 2%nat with (length [u; v]). apply NoDup_incl_length; [apply NoDup_filter; auto|].
  intros x Hx. apply filter_In in Hx. destruct (H x (proj2 Hx)); cbn; auto.
Qed.

Lemma queens_bound n : 0 <= n -> Z.of_nat (length (queens_quads n)) <= 3 * n ^ 3.
Proof.
  intro Hn. unfold queens_quads. rewrite app_length.
  pose proof (loop_length 0 n) as L0. pose proof (loop_length 1 (n + 1)) as L1.
  assert (U : forall j, (length (until j (loop 1 (n + 1))) <= length (loop 1 (n + 1)))%nat).
  { intro j. generalize (loop 1 (n + 1)). induction l as [|k l IH]; auto. cbn [until]. destruct (k =? j); cbn; lia. }
  assert (R : (length (queens_rows n) <= length (loop 0 n) * (length (loop 1 (n + 1)) * length (loop 1 (n + 1))))%nat).
  { unfold queens_rows. apply flat_map_bound. intros i _. apply flat_map_bound. intros j _. rewrite map_length. apply U. }
  assert (D : (length (queens_diagonals n) <= length (loop 1 (n + 1)) * (length (loop 1 (n + 1)) * (length (loop 0 n) * 2)))%nat).
  { unfold queens_diagonals. apply flat_map_bound. intros i _. eapply Nat.le_trans; [apply flat_map_bound|].
    - intros k _. apply flat_map_bound. intros d _. apply (pick_two (fun l => (i, d, k, l)) _ (k - i + d) (i + d - k)); [apply loop_nodup|].
      intros l H. apply orb_true_iff in H. rewrite !Z.eqb_eq in H. lia.
    - apply Nat.mul_le_mono_r. apply U. }
  apply Nat2Z.inj_le in R, D. rewrite !Nat2Z.inj_mul in *. rewrite L0, L1 in *. rewrite !Z.max_r in * by lia.
  replace (n + 1 - 1) with n in * by lia. replace (n - 0) with n in * by lia. rewrite Nat2Z.inj_add. replace (n ^ 3) with (n * n * n) by ring. nia.
Qed.

Lemma queens_few n : 0 <= n <= 800 -> Z.of_nat (length (queens_quads n)) <= int_max.
Proof.
  intro H. pose proof (queens_bound n ltac:(lia)) as B.
  assert (n ^ 3 <= 800 ^ 3) by (apply Z.pow_le_mono_l; lia). unfold int_max. lia.
Qed.

(** ** Amazons *)

Lemma map_flat {A B C} (f : B -> C) (g : A -> list B) l : map f (flat_map g l) = flat_map (fun x => map f (g x)) l.
Proof. induction l as [|x l IH]; auto. cbn [flat_map]. rewrite map_app, IH. reflexivity. Qed.

Lemma flat_map_same {A B} (f g : A -> list B) l : (forall x, f x = g x) -> flat_map f l = flat_map g l.
Proof. intro H. induction l as [|x l IH]; auto. cbn [flat_map]. rewrite H, IH. reflexivity. Qed.

Lemma in_range i j k : In k (range i j) <-> i <= k <= j.
Proof. unfold range. rewrite in_loop. lia. Qed.

Lemma elem_in x l : elem x l = true <-> In x l.
Proof. unfold elem. rewrite existsb_exists. split; [intros (y & Hy & E); apply Z.eqb_eq in E; congruence|]. intro H. exists x. split; auto. apply Z.eqb_refl. Qed.

Definition knight_quads (n dx dk : Z) : list (Z * Z * Z * Z) :=
  flat_map (fun x => flat_map (fun k =>
    if elem (x + dx) (range 1 n) && elem (k + dk) (range 0 (n - 1)) then [(x, k, x + dx, k + dk)] else [])
    (range 0 (n - 1))) (range 1 n).
Definition diagonal_quads (n dir : Z) : list (Z * Z * Z * Z) :=
  flat_map (fun x => flat_map (fun k => flat_map (fun y =>
    if elem (k + dir * (y - x)) (range 0 (n - 1)) then [(x, k, y, k + dir * (y - x))] else [])
    (range (x + 1) n)) (range 0 (n - 1))) (range 1 n).
Definition alldiff_quads (n : Z) : list (Z * Z * Z * Z) :=
  flat_map (fun x => flat_map (fun y => if x <? y then map (fun k => (x, k, y, k)) (range 0 (n - 1)) else [])
    (range 1 n)) (range 1 n).

Lemma knight_lines n dx dk : knight n dx dk = map qline (knight_quads n dx dk).
Proof.
  unfold knight, knight_quads. rewrite map_flat. apply flat_map_same. intro x. rewrite map_flat. apply flat_map_same. intro k.
  destruct (_ && _); reflexivity.
Qed.
Lemma diagonal_lines n dir : diagonal n dir = map qline (diagonal_quads n dir).
Proof.
  unfold diagonal, diagonal_quads. rewrite map_flat. apply flat_map_same. intro x. rewrite map_flat. apply flat_map_same. intro k.
  rewrite map_flat. apply flat_map_same. intro y. destruct (elem _ _); reflexivity.
Qed.
Lemma alldiff_lines n : alldiff n = map qline (alldiff_quads n).
Proof.
  unfold alldiff, alldiff_quads. rewrite map_flat. apply flat_map_same. intro x. rewrite map_flat. apply flat_map_same. intro y.
  destruct (x <? y); auto. rewrite map_map. reflexivity.
Qed.

Lemma in_knight n dx dk x d y e : In (x, d, y, e) (knight_quads n dx dk) <->
  1 <= x <= n /\ 1 <= y <= n /\ 0 <= d < n /\ 0 <= e < n /\ y = x + dx /\ e = d + dk.
Proof.
  unfold knight_quads. rewrite in_flat_map. split.
  - intros (x' & Hx & H). apply in_flat_map in H. destruct H as (k & Hk & H).
    destruct (elem _ _ && elem _ _) eqn:E; [|destruct H]. destruct H as [H|[]]. injection H as -> -> <- <-.
    apply andb_true_iff in E. rewrite !elem_in in E. rewrite !in_range in *. lia.
  - intros (H1 & H2 & H3 & H4 & -> & ->). exists x. split; [apply in_range; lia|]. apply in_flat_map. exists d. split; [apply in_range; lia|].
    assert (E : elem (x + dx) (range 1 n) && elem (d + dk) (range 0 (n - 1)) = true) by (apply andb_true_iff; rewrite !elem_in, !in_range; lia).
    rewrite E. left. auto.
Qed.

Lemma in_diagonal n dir x d y e : In (x, d, y, e) (diagonal_quads n dir) <->
  1 <= x /\ x < y /\ y <= n /\ 0 <= d < n /\ 0 <= e < n /\ e = d + dir * (y - x).
Proof.
  unfold diagonal_quads. rewrite in_flat_map. split.
  - intros (x' & Hx & H). apply in_flat_map in H. destruct H as (k & Hk & H). apply in_flat_map in H. destruct H as (y' & Hy & H).
    destruct (elem _ _) eqn:E; [|destruct H]. destruct H as [H|[]]. injection H as <- <- <- <-.
    rewrite elem_in in E. rewrite !in_range in *. lia.
  - intros (H1 & H2 & H3 & H4 & H5 & ->). exists x. split; [apply in_range; lia|]. apply in_flat_map. exists d. split; [apply in_range; lia|].
    apply in_flat_map. exists y. split; [apply in_range; lia|].
    assert (E : elem (d + dir * (y - x)) (range 0 (n - 1)) = true) by (rewrite elem_in, in_range; lia). rewrite E. left. auto.
Qed.

Lemma in_alldiff n x d y e : In (x, d, y, e) (alldiff_quads n) <-> 1 <= x /\ x < y /\ y <= n /\ 0 <= d < n /\ e = d.
Proof.
  unfold alldiff_quads. rewrite in_flat_map. split.
  - intros (x' & Hx & H). apply in_flat_map in H. destruct H as (y' & Hy & H). destruct (Z.ltb_spec x' y'); [|destruct H].
    apply in_map_iff in H. destruct H as (k & E & Hk). injection E as <- <- <- <-. rewrite !in_range in *. lia.
  - intros (H1 & H2 & H3 & H4 & ->). exists x. split; [apply in_range; lia|]. apply in_flat_map. exists y. split; [apply in_range; lia|].
    rewrite (proj2 (Z.ltb_lt x y)) by lia. apply in_map_iff. exists d. split; auto. apply in_range. lia.
Qed.

Definition amazon_quads (n : Z) : list (Z * Z * Z * Z) :=
  alldiff_quads n ++ (diagonal_quads n 1 ++ diagonal_quads n (-1)) ++
  (knight_quads n 1 2 ++ knight_quads n 1 (-2) ++ knight_quads n 2 1 ++ knight_quads n 2 (-1)).

Lemma in_amazon n x d y e : In (x, d, y, e) (amazon_quads n) <->
  1 <= x /\ x < y /\ y <= n /\ 0 <= d < n /\ 0 <= e < n /\ (queen_attacks x d y e \/ knight_attacks x d y e).
Proof.
  unfold amazon_quads. rewrite !in_app_iff, in_alldiff, !in_diagonal, !in_knight. unfold queen_attacks, knight_attacks. split.
  - intros [H|[[H|H]|[H|[H|[H|H]]]]]; repeat (split; [lia|]); [left|left|left|right|right|right|right]; lia.
  - intros (H1 & H2 & H3 & H4 & H5 & [[H|[H|H]]|[(H & H')|(H & H')]]).
    + exfalso. lia.
    + left. lia.
    + right. left. destruct (Z_lt_le_dec d e); [left|right]; lia.
    + right. right. destruct (Z_lt_le_dec d e); [left; lia|right; left; lia].
    + right. right. right. right. destruct (Z_lt_le_dec d e); [left; lia|right; lia].
Qed.

Lemma amazon_fine n q : In q (amazon_quads n) -> qfine n n q.
Proof. destruct q as (((x & d) & y) & e). intro H. apply in_amazon in H. cbn. lia. Qed.

Lemma amazon_distinct n x d y e : In (x, d, y, e) (amazon_quads n) -> x <> y.
Proof. intro H. apply in_amazon in H. lia. Qed.

Lemma amazon_describes n : 0 <= n -> describes (qproblem n n (amazon_quads n)) n n (fun a => pairwise n a amazons_apart).
Proof.
  intro Hn. apply qdescribes; auto. intros a L. unfold pairwise, amazons_apart. split.
  - intros P x d y e H (E1 & E2). apply in_amazon in H. destruct (P x y) as (P1 & P2); try lia. subst d e. tauto.
  - intros H x y Hx Hy N. pose proof (L x Hx). pose proof (L y Hy).
    assert (G : forall x y, 1 <= x <= n -> 1 <= y <= n -> x < y -> ~ queen_attacks x (a x) y (a y) /\ ~ knight_attacks x (a x) y (a y)).
    { clear x y Hx Hy N H0 H1. intros x y Hx Hy Lt. pose proof (L x Hx). pose proof (L y Hy).
      split; intro Q; apply (H x (a x) y (a y)); auto; apply in_amazon; repeat split; try lia; auto. }
    destruct (Z_lt_le_dec x y); [apply (G x y); lia|]. destruct (G y x) as (G1 & G2); try lia.
    unfold queen_attacks, knight_attacks in *. lia.
Qed.

Definition am1 : text := txt "c one variable per row, value is the column to place an amazon:".
Definition am2 : text := txt "c Only one amazon per column:".
Definition am3 : text := txt "c only one per diagonal:".
Definition am4 : text := txt "c attack relation of knights: ".
Definition am0 (n : Z) : text := txt "c " ++ num n ++ txt " amazons. see https://de.wikipedia.org/wiki/Damenproblem#Andere_Figuren".
Definition amazon_lines (n : Z) : list text :=
  am0 n :: am1 :: map (dline n) (loop 1 (n + 1)) ++ am2 :: map qline (alldiff_quads n) ++
  am3 :: map qline (diagonal_quads n 1 ++ diagonal_quads n (-1)) ++
  am4 :: map qline (knight_quads n 1 2 ++ knight_quads n 1 (-2) ++ knight_quads n 2 1 ++ knight_quads n 2 (-1)).

Lemma amazon_text n : amazons_file n = unlines (amazon_lines n).
Proof. unfold amazons_file, amazon_lines. rewrite !knight_lines, !diagonal_lines, alldiff_lines, !map_app. reflexivity. Qed.

Lemma in_amazon_lines n l : In l (amazon_lines n) ->
  In l (map (dline n) (loop 1 (n + 1)) ++ map qline (amazon_quads n)) \/ l = am0 n \/ In l [am1; am2; am3; am4].
Proof.
  unfold amazon_lines, amazon_quads. intros [<-|[<-|Hl]]; [auto|right; right; cbn; auto|].
  apply in_app_or in Hl. destruct Hl as [Hl|[<-|Hl]]; [left; apply in_or_app; auto|right; right; cbn; auto|].
  rewrite !map_app in *. apply in_app_or in Hl. destruct Hl as [Hl|[<-|Hl]]; [left; rewrite !in_app_iff; auto|right; right; cbn; auto|].
  apply in_app_or in Hl. destruct Hl as [Hl|[<-|Hl]]; [left; rewrite !in_app_iff in *; tauto|right; right; cbn; auto|].
  left. rewrite !in_app_iff in *; tauto.
Qed.

Lemma amazon_has n : has_lines (amazons_file n) (amazon_lines n).
Proof.
  split; [|left; apply amazon_text]. intros l Hl. destruct (in_amazon_lines n l Hl) as [H|[->|H]].
  - apply (body_no_lf _ _ _ _ H).
  - unfold am0. repeat apply no_lf_app; try apply num_no_lf; vm_compute; intuition discriminate.
  - destruct H as [<-|[<-|[<-|[<-|[]]]]]; vm_compute; intuition discriminate.
Qed.

Lemma keep_q qs : filter keep (map qline qs) = map qline qs.
Proof. apply keep_all. intros l Hl. apply in_map_iff in Hl. destruct Hl as (q & <- & _). apply qline_kind. Qed.
Lemma keep_d D l : filter keep (map (dline D) l) = map (dline D) l.
Proof. apply keep_all. intros x Hx. apply in_map_iff in Hx. destruct Hx as (q & <- & _). split; reflexivity. Qed.

Lemma amazon_keep n : filter keep (amazon_lines n) = map (dline n) (loop 1 (n + 1)) ++ map qline (amazon_quads n).
Proof.
  unfold amazon_lines, amazon_quads. cbn [filter]. change (keep (am0 n)) with false. change (keep am1) with false. cbn iota.
  rewrite filter_app. cbn [filter]. change (keep am2) with false. cbn iota. rewrite filter_app. cbn [filter]. change (keep am3) with false. cbn iota.
  rewrite filter_app. cbn [filter]. change (keep am4) with false. cbn iota. rewrite !keep_q, keep_d, !map_app. reflexivity.
Qed.

Theorem amazon_accepted n : 0 <= n -> accepted (qproblem n n (amazon_quads n)) (amazons_file n).
Proof.
  intros Hn. apply qaccepted with (ls := amazon_lines n); [lia|apply amazon_has| |apply amazon_keep].
  intros l Hl Hp. exfalso. destruct (in_amazon_lines n l Hl) as [H|[->|H]]; [|discriminate|].
  - destruct (keep_lines n n (amazon_quads n)) as (_ & K). destruct (K l H) as (_ & E). congruence.
  - destruct H as [<-|[<-|[<-|[<-|[]]]]]; discriminate.
Qed.

Lemma amazon_short n : 0 <= n <= int_max -> lines_below 3000 (amazons_file n).
Proof.
  intros Hn. apply (lines_below_intro _ _ _ (amazon_has n)). intros l Hl. destruct (in_amazon_lines n l Hl) as [H|[->|H]].
  - apply (body_short n n (amazon_quads n) l); auto. apply amazon_fine.
  - unfold am0. rewrite !app_length. cbn [txt list_ascii_of_string length]. pose proof (num_length_int n ltac:(lia)). lia.
  - destruct H as [<-|[<-|[<-|[<-|[]]]]]; vm_compute; reflexivity.
Qed.

Lemma amazon_bound n : 0 <= n -> Z.of_nat (length (amazon_quads n)) <= 7 * n ^ 3.
Proof.
  intro Hn. pose proof (loop_length 0 n) as L0. pose proof (loop_length 1 (n + 1)) as L1.
  assert (R0 : length (range 0 (n - 1)) = length (loop 0 n)) by (unfold range; replace (n - 1 + 1) with n by lia; auto).
  assert (R1 : length (range 1 n) = length (loop 1 (n + 1))) by reflexivity.
  set (a := length (loop 0 n)) in *. set (b := length (loop 1 (n + 1))) in *.
  assert (K : forall dx dk, (length (knight_quads n dx dk) <= b * (a * 1))%nat).
  { intros. unfold knight_quads. rewrite <- R1, <- R0. apply flat_map_bound. intros x _. apply flat_map_bound. intros k _. destruct (_ && _); cbn; lia. }
  assert (D : forall dir, (length (diagonal_quads n dir) <= b * (a * b))%nat).
  { intros. unfold diagonal_quads. rewrite <- R1, <- R0. apply flat_map_bound. intros x Hx. apply flat_map_bound. intros k _.
    apply in_range in Hx. eapply Nat.le_trans; [apply (flat_map_bound _ 1)|].
    - intros y _. destruct (elem _ _); cbn; lia.
    - rewrite Nat.mul_1_r. unfold range. apply Nat2Z.inj_le. rewrite !loop_length. lia. }
  assert (A : (length (alldiff_quads n) <= b * (b * a))%nat).
  { unfold alldiff_quads. rewrite <- R1, <- R0. apply flat_map_bound. intros x _. apply flat_map_bound. intros y _. destruct (x <? y); cbn; [rewrite map_length|]; lia. }
  unfold amazon_quads. rewrite !app_length. pose proof (D 1). pose proof (D (-1)). pose proof (K 1 2). pose proof (K 1 (-2)). pose proof (K 2 1). pose proof (K 2 (-1)).
  assert (Ea : Z.of_nat a = n) by lia. assert (Eb : Z.of_nat b = n) by lia. assert (a = b) by lia. subst a. rewrite H5 in *.
  replace (n ^ 3) with (Z.of_nat (b * (b * b))) by (rewrite !Nat2Z.inj_mul, Eb; ring).
  assert ((b * b <= b * (b * b))%nat) by nia. lia.
Qed.

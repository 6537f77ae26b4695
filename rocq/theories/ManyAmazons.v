(** * Placements of 22 and more amazons *)

From Verif Require Import Spec BenchSpec.
#[local] Open Scope Z_scope.

(** Three runs of rows, each with steps of three; [i] is the column, from 0. *)
Definition three (a b p1 p2 p3 i : Z) : Z := if i <? a then 3 * i + p1 else if i <? b then 3 * (i - a) + p2 else 3 * (i - b) + p3.
Definition sw (u v i : Z) : Z := if i =? u then v else if i =? v then u else i.

Ltac cmp := repeat match goal with
  | |- context [?a <? ?b] => destruct (Z.ltb_spec a b)
  | |- context [?a =? ?b] => destruct (Z.eqb_spec a b)
  end; try lia.

Definition good0 (n : Z) (h : Z -> Z) : Prop :=
  (forall i, 0 <= i < n -> 0 <= h i < n) /\
  forall i j, 0 <= i < j -> j < n -> let d := h i - h j in
    d <> 0 /\ d <> j - i /\ d <> i - j /\ (j = i + 1 -> d <> 2 /\ d <> -2) /\ (j = i + 2 -> d <> 1 /\ d <> -1).

Lemma am0 q : 2 <= q -> good0 (6 * q) (three (2 * q) (4 * q) 2 1 0).
Proof. intro Q. split; [intros i H|intros i j H L; cbv zeta]; unfold three; cmp. Qed.
Lemma am1 q : 2 <= q -> good0 (6 * q + 1) (three (2 * q + 1) (4 * q + 1) 0 2 1).
Proof. intro Q. split; [intros i H|intros i j H L; cbv zeta]; unfold three; cmp. Qed.
Lemma am4 q : 1 <= q -> good0 (6 * q + 4) (three (2 * q + 1) (4 * q + 3) 2 0 1).
Proof. intro Q. split; [intros i H|intros i j H L; cbv zeta]; unfold three; cmp. Qed.
Lemma am5 q : 1 <= q -> good0 (6 * q + 5) (three (2 * q + 2) (4 * q + 4) 0 1 2).
Proof. intro Q. split; [intros i H|intros i j H L; cbv zeta]; unfold three; cmp. Qed.
Lemma sw_cases u v i : i = u /\ sw u v i = v \/ i <> u /\ i = v /\ sw u v i = u \/ i <> u /\ i <> v /\ sw u v i = i.
Proof. unfold sw. cmp. Qed.
(** The value of a double exchange. *)
Lemma sw2 q i : 4 <= q -> let k := sw 0 (2 * q + 1) (sw 1 (6 * q - 2) i) in
  i = 0 /\ k = 2 * q + 1 \/ i = 1 /\ k = 6 * q - 2 \/ i = 2 * q + 1 /\ k = 0 \/ i = 6 * q - 2 /\ k = 1 \/
  i <> 0 /\ i <> 1 /\ i <> 2 * q + 1 /\ i <> 6 * q - 2 /\ k = i.
Proof.
  intros Q k. unfold k. destruct (sw_cases 1 (6 * q - 2) i) as [(A & ->)|[(A & B & ->)|(A & B & ->)]].
  - destruct (sw_cases 0 (2 * q + 1) (6 * q - 2)) as [C|[C|C]]; lia.
  - destruct (sw_cases 0 (2 * q + 1) 1) as [C|[C|C]]; lia.
  - destruct (sw_cases 0 (2 * q + 1) i) as [C|[C|C]]; lia.
Qed.
Lemma am2 q : 4 <= q -> good0 (6 * q + 2) (fun i => three (2 * q + 1) (4 * q + 1) 0 2 1 (sw 0 (2 * q + 1) (sw 1 (6 * q - 2) i))).
Proof.
  intro Q. split.
  - intros i H. pose proof (sw2 q i Q) as S. cbv zeta in S. set (k := sw 0 _ _) in *. clearbody k. unfold three. cmp.
  - intros i j H L. pose proof (sw2 q i Q) as S. pose proof (sw2 q j Q) as T. cbv zeta in *. set (k := sw 0 _ (sw _ _ i)) in *. set (l := sw 0 _ (sw _ _ j)) in *. clearbody k l.
    unfold three. destruct S as [S|[S|[S|[S|S]]]], T as [T|[T|[T|[T|T]]]]; cmp.
Qed.
Lemma am3 q : 4 <= q -> good0 (6 * q + 3) (fun i => if i =? 0 then 6 * q + 2 else three (2 * q + 1) (4 * q + 1) 0 2 1 (sw 4 (6 * q + 1) (i - 1))).
Proof.
  intro Q. split.
  - intros i H. pose proof (sw_cases 4 (6 * q + 1) (i - 1)) as S. set (k := sw 4 _ _) in *. clearbody k. unfold three. cmp.
  - intros i j H L. pose proof (sw_cases 4 (6 * q + 1) (i - 1)) as S. pose proof (sw_cases 4 (6 * q + 1) (j - 1)) as T. cbv zeta.
    set (k := sw 4 _ (i - 1)) in *. set (l := sw 4 _ (j - 1)) in *. clearbody k l.
    unfold three. destruct S as [S|[S|S]], T as [T|[T|T]]; cmp.
Qed.

Lemma many_amazons n : 22 <= n -> exists h, good0 n h.
Proof.
  intro H. pose proof (Z.div_mod n 6 ltac:(lia)) as D. pose proof (Z.mod_pos_bound n 6 ltac:(lia)) as R. set (q := n / 6) in *. set (r := n mod 6) in *. clearbody q r.
  assert (C : n = 6 * q \/ n = 6 * q + 1 \/ n = 6 * q + 2 \/ n = 6 * q + 3 \/ n = 6 * q + 4 \/ n = 6 * q + 5) by lia.
  destruct C as [->|[->|[->|[->|[->| ->]]]]]; eexists.
  - apply am0; lia.
  - apply am1; lia.
  - apply am2; lia.
  - apply am3; lia.
  - apply am4; lia.
  - apply am5; lia.
Qed.
Lemma many_placed n : 22 <= n -> exists a, (forall x, 1 <= x <= n -> 0 <= a x < n) /\ pairwise n a amazons_apart.
Proof.
  intro H. destruct (many_amazons n H) as (h & A & B). exists (fun x => h (x - 1)). split; [intros x Hx; apply A; lia|].
  intros x y Hx Hy N. unfold amazons_apart, queen_attacks, knight_attacks. destruct (Z_lt_ge_dec x y) as [L|L].
  - specialize (B (x - 1) (y - 1) ltac:(lia) ltac:(lia)). cbv zeta in B. lia.
  - specialize (B (y - 1) (x - 1) ltac:(lia) ltac:(lia)). cbv zeta in B. lia.
Qed.

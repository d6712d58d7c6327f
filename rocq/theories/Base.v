(** Shared vocabulary: 32-bit wrap-around, list update, little-endian integers. *)

From Coq Require Import NArith List Bool Lia ZArith FinFun.
From Coq Require Import ZifyBool ZifyNat ZifyN.
Import ListNotations.
Local Open Scope N_scope.

Ltac Zify.zify_post_hook ::= Z.div_mod_to_equations.

(** Unsigned 32-bit arithmetic wraps: C++ [unsigned int]. *)
Definition u32 (n : N) : N := n mod 2^32.

Lemma u32_small n : n < 2^32 -> u32 n = n.
Proof. intros; unfold u32; apply N.mod_small; assumption. Qed.

Lemma u32_lt n : u32 n < 2^32.
Proof. unfold u32; apply N.mod_lt; discriminate. Qed.

(** Rounded-up quotient of the mathematical integers, used in specifications only. *)
Definition cdiv (a b : N) : N := (a + b - 1) / b.

(** [0, 1, ..., n-1]. *)
Definition Nrange (n : N) : list N := map N.of_nat (seq 0 (N.to_nat n)).

Lemma Nrange_length n : length (Nrange n) = N.to_nat n.
Proof. unfold Nrange; rewrite map_length, seq_length; reflexivity. Qed.

Lemma in_Nrange n i : In i (Nrange n) <-> i < n.
Proof.
  unfold Nrange; rewrite in_map_iff; split.
  - intros (k & <- & H); apply in_seq in H; lia.
  - intros H; exists (N.to_nat i); split; [lia|]; apply in_seq; lia.
Qed.

Lemma nth_error_Nrange n i : (i < N.to_nat n)%nat -> nth_error (Nrange n) i = Some (N.of_nat i).
Proof.
  intros H; unfold Nrange.
  rewrite nth_error_map.
  rewrite (nth_error_nth' _ 0%nat) by (rewrite seq_length; lia).
  rewrite seq_nth by lia; reflexivity.
Qed.

Lemma NoDup_Nrange n : NoDup (Nrange n).
Proof.
  unfold Nrange; apply Injective_map_NoDup; [|apply seq_NoDup].
  intros a b; apply Nnat.Nat2N.inj.
Qed.

(** Functional update of a list; out of range leaves it unchanged (callers check). *)
Fixpoint upd {A} (i : nat) (v : A) (l : list A) : list A :=
  match l, i with
  | [], _ => []
  | _ :: t, O => v :: t
  | x :: t, S i' => x :: upd i' v t
  end.

Lemma upd_length {A} i (v : A) l : length (upd i v l) = length l.
Proof. revert i; induction l; destruct i; simpl; auto. Qed.

Lemma nth_error_upd_same {A} i (v : A) l :
  (i < length l)%nat -> nth_error (upd i v l) i = Some v.
Proof. revert i; induction l; destruct i; simpl; intros; try lia; auto. apply IHl; lia. Qed.

Lemma nth_error_upd_other {A} i j (v : A) l :
  i <> j -> nth_error (upd i v l) j = nth_error l j.
Proof.
  revert i j; induction l; intros i j H; destruct i, j; simpl; auto; try congruence.
Qed.

Lemma nth_error_upd {A} i j (v : A) l :
  nth_error (upd i v l) j
  = if (Nat.eqb i j && Nat.ltb i (length l))%bool then Some v else nth_error l j.
Proof.
  destruct (Nat.eqb_spec i j) as [->|H]; simpl.
  - destruct (Nat.ltb_spec j (length l)).
    + apply nth_error_upd_same; auto.
    + rewrite (proj2 (nth_error_None (upd j v l) j)), (proj2 (nth_error_None l j)); auto.
      rewrite upd_length; lia.
  - apply nth_error_upd_other; auto.
Qed.

(** Little-endian encoding of an unsigned integer in [k] bytes. *)
Fixpoint le_bytes (k : nat) (n : N) : list N :=
  match k with O => [] | S k' => n mod 256 :: le_bytes k' (n / 256) end.

Fixpoint le_val (bs : list N) : N :=
  match bs with [] => 0 | b :: t => b + 256 * le_val t end.

Lemma le_bytes_length k n : length (le_bytes k n) = k.
Proof. revert n; induction k; simpl; intros; auto. Qed.

Lemma le_bytes_byte k n b : In b (le_bytes k n) -> b < 256.
Proof.
  revert n; induction k; simpl; intros n H; [tauto|].
  destruct H as [<-|H]; [apply N.mod_lt; discriminate | eapply IHk; eassumption].
Qed.

Lemma le_val_bytes k n : n < 256 ^ N.of_nat k -> le_val (le_bytes k n) = n.
Proof.
  revert n; induction k; intros n H.
  - simpl in *; lia.
  - cbn [le_bytes le_val].
    rewrite IHk.
    + pose proof (N.div_mod' n 256); lia.
    + rewrite Nnat.Nat2N.inj_succ, N.pow_succ_r' in H.
      apply N.div_lt_upper_bound; [discriminate|exact H].
Qed.

(** Option monad. *)
Definition obind {A B} (x : option A) (f : A -> option B) : option B :=
  match x with Some a => f a | None => None end.

Fixpoint omap {A B} (f : A -> option B) (l : list A) : option (list B) :=
  match l with
  | [] => Some []
  | a :: t => obind (f a) (fun b => obind (omap f t) (fun bs => Some (b :: bs)))
  end.

Lemma omap_length {A B} (f : A -> option B) l r : omap f l = Some r -> length r = length l.
Proof.
  revert r; induction l; simpl; intros r H.
  - inversion H; reflexivity.
  - destruct (f a); simpl in H; [|discriminate].
    destruct (omap f l); simpl in H; [|discriminate].
    inversion H; subst; simpl; f_equal; auto.
Qed.

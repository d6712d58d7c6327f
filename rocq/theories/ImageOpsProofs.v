(** Colours made of representable channels are stored exactly. *)

From Coq Require Import ZArith NArith List Bool Lia Reals Lra.
From Coq Require Import ZifyBool ZifyNat ZifyN.
From Flocq Require Import Core IEEE754.BinarySingleNaN IEEE754.Binary IEEE754.Bits.
From Verif Require Import Base FormatModel FloatModel FloatSpec FloatProofs ArithModel ArithSpec
  DoubleProofs TextureModel ImageModel ImageLoops ImageSpec ImageStoreProofs ImageGrayProofs.
Import ListNotations.
Local Open Scope Z_scope.

Definition pack555_ok (w : Z) : bool :=
  let r := w / 1024 in let g := w / 32 mod 32 in let b := w mod 32 in
  let p := Z.lor (Z.lor (Z.shiftl r 10) (Z.shiftl g 5)) b mod 2 ^ 16 in
  (32768 <=? w) ||
  ((p =? w) && (field p M555r 10 =? r) && (field p M555g 5 =? g) && (field p M555b 0 =? b)).
Definition pack565_ok (w : Z) : bool :=
  let r := w / 2048 in let g := w / 32 mod 64 in let b := w mod 32 in
  let p := Z.lor (Z.lor (Z.shiftl r 11) (Z.shiftl g 5)) b mod 2 ^ 16 in
  (p =? w) && (field p M565r 11 =? r) && (field p M565g 5 =? g) && (field p M565b 0 =? b).
Lemma pack555_all w : 0 <= w < 32768 -> pack555_ok w = true.
Proof. intros H. apply (all16_spec pack555_ok); [vm_compute; reflexivity|lia]. Qed.
Lemma pack565_all w : 0 <= w < 65536 -> pack565_ok w = true.
Proof. intros H. apply (all16_spec pack565_ok); [vm_compute; reflexivity|lia]. Qed.

Lemma pack555 r g b : 0 <= r <= 31 -> 0 <= g <= 31 -> 0 <= b <= 31 ->
  let p := Z.lor (Z.lor (Z.shiftl r 10) (Z.shiftl g 5)) b mod 2 ^ 16 in
  0 <= p < 32768 /\ field p M555r 10 = r /\ field p M555g 5 = g /\ field p M555b 0 = b.
Proof.
  intros Hr Hg Hb. pose proof (pack555_all (r * 1024 + g * 32 + b) ltac:(lia)) as H.
  unfold pack555_ok in H.
  replace ((r * 1024 + g * 32 + b) / 1024) with r in H by lia.
  replace ((r * 1024 + g * 32 + b) / 32 mod 32) with g in H by lia.
  replace ((r * 1024 + g * 32 + b) mod 32) with b in H by lia.
  cbv zeta in *.
  set (p := Z.lor (Z.lor (Z.shiftl r 10) (Z.shiftl g 5)) b mod 2 ^ 16) in *.
  replace (32768 <=? r * 1024 + g * 32 + b) with false in H by lia. cbn [orb] in H.
  rewrite !andb_true_iff, !Z.eqb_eq in H. destruct H as (((H0 & H1) & H2) & H3).
  repeat split; auto; lia.
Qed.

Lemma pack565 r g b : 0 <= r <= 31 -> 0 <= g <= 63 -> 0 <= b <= 31 ->
  let p := Z.lor (Z.lor (Z.shiftl r 11) (Z.shiftl g 5)) b mod 2 ^ 16 in
  0 <= p < 65536 /\ field p M565r 11 = r /\ field p M565g 5 = g /\ field p M565b 0 = b.
Proof.
  intros Hr Hg Hb. pose proof (pack565_all (r * 2048 + g * 32 + b) ltac:(lia)) as H.
  unfold pack565_ok in H.
  replace ((r * 2048 + g * 32 + b) / 2048) with r in H by lia.
  replace ((r * 2048 + g * 32 + b) / 32 mod 64) with g in H by lia.
  replace ((r * 2048 + g * 32 + b) mod 32) with b in H by lia.
  cbv zeta in *.
  set (p := Z.lor (Z.lor (Z.shiftl r 11) (Z.shiftl g 5)) b mod 2 ^ 16) in *.
  rewrite !andb_true_iff, !Z.eqb_eq in H. destruct H as (((H0 & H1) & H2) & H3).
  repeat split; auto; lia.
Qed.

Section Ops.
Context (pw : double -> double -> double).
Local Notation D := (double_arith pw).

Lemma one_norm8 : @toNorm D 255 255 = double_of_Z 1.
Proof. apply B2FF_inj. vm_compute. reflexivity. Qed.
Lemma one_norm16 : @toNorm D 65535 65535 = double_of_Z 1.
Proof. apply B2FF_inj. vm_compute. reflexivity. Qed.
Lemma one_norm5 : @toNorm D 31 31 = double_of_Z 1.
Proof. apply B2FF_inj. vm_compute. reflexivity. Qed.
Lemma one_norm6 : @toNorm D 63 63 = double_of_Z 1.
Proof. apply B2FF_inj. vm_compute. reflexivity. Qed.
Lemma zero_norm8 : @toNorm D 255 0 = double_of_Z 0.
Proof. vm_compute. reflexivity. Qed.
Lemma zero_norm16 : @toNorm D 65535 0 = double_of_Z 0.
Proof. vm_compute. reflexivity. Qed.
Lemma zero_norm5 : @toNorm D 31 0 = double_of_Z 0.
Proof. vm_compute. reflexivity. Qed.
Lemma zero_norm6 : @toNorm D 63 0 = double_of_Z 0.
Proof. vm_compute. reflexivity. Qed.
Lemma one_float : dwiden (float_of_Z 1) = double_of_Z 1.
Proof. apply B2FF_inj. vm_compute. reflexivity. Qed.
Lemma zero_float : dwiden (float_of_Z 0) = double_of_Z 0.
Proof. vm_compute. reflexivity. Qed.

Definition norm_val (m : Z) (d : double) : Prop := exists v, 0 <= v <= m /\ d = @toNorm D m v.
Definition int_val (lo hi : Z) (d : double) : Prop := exists v, lo <= v <= hi /\ d = double_of_Z v.
Definition float_val (d : double) : Prop := exists x, d = dwiden x.

(** The values a colour channel of a format can have ([green]: of the green channel). *)
Definition rep (f : imgfmt) (green : bool) (d : double) : Prop :=
  match f with
  | I_Gray8 | I_RGB8 | I_RGBA8 => norm_val 255 d
  | I_Gray16 | I_RGB16 | I_RGBA16 => norm_val 65535 d
  | I_RGB5 => norm_val 31 d
  | I_RGB565 => norm_val (if green then 63 else 31) d
  | I_RGBF | I_RGBAF | I_Float => float_val d
  | I_Int16 => int_val (-32768) 32767 d
  | I_UInt16 => int_val 0 65535 d
  | I_Int32 => int_val (-2147483648) 2147483647 d
  | I_UInt32 => int_val 0 4294967295 d
  | I_Double | I_Complex => True
  end.

Lemma rep_one f g : rep f g (double_of_Z 1).
Proof.
  destruct f; cbn [rep]; auto.
  all: try (exists 255; split; [lia|symmetry; apply one_norm8]).
  all: try (exists 65535; split; [lia|symmetry; apply one_norm16]).
  all: try (exists 31; split; [lia|symmetry; apply one_norm5]).
  all: try (exists (float_of_Z 1); symmetry; apply one_float).
  all: try (exists 1; split; [lia|reflexivity]).
  destruct g; [exists 63; split; [lia|symmetry; apply one_norm6] |
               exists 31; split; [lia|symmetry; apply one_norm5]].
Qed.

Lemma rep_zero f g : rep f g (double_of_Z 0).
Proof.
  destruct f; cbn [rep]; auto.
  all: try (exists 0; split; [lia|symmetry; first [apply zero_norm8|apply zero_norm16|apply zero_norm5]]).
  all: try (exists (float_of_Z 0); symmetry; apply zero_float).
  all: try (exists 0; split; [lia|reflexivity]).
  destruct g; exists 0; (split; [lia|symmetry; first [apply zero_norm6|apply zero_norm5]]).
Qed.

Lemma read_stored f (p : pix D) : stored pw f p -> exists c, getPixelImpl f p = Some c.
Proof.
  intros S. destruct (store_read pw f p S) as (c & q & G & _). eauto.
Qed.

(** What is read is made of representable channels. *)
Lemma read_rep f (p : pix D) c : stored pw f p -> getPixelImpl f p = Some c ->
  rep f false (c_r c) /\ rep f true (c_g c) /\ rep f false (c_b c) /\ rep f false (c_a c) /\
  (f <> I_RGB565 -> rep f false (c_g c)) /\ c = hold pw f c.
Proof.
  intros S G.
  destruct f; destruct p as [l|l|l];
    destruct l as [|x1 [|x2 [|x3 [|x4 [|x5 l]]]]]; try contradiction;
    cbn [stored] in S; cbn [getPixelImpl] in G; inversion G; subst c; clear G;
    cbn [c_r c_g c_b c_a gray hold]; unfold u8, u16, range in S.
  all: try (match goal with |- context [M555r] =>
    pose proof (check555_all x1 S) as C; unfold check555 in C;
    rewrite !andb_true_iff, !Z.leb_le, Z.eqb_eq in C; destruct C as [[[[[[C1 C2] C3] C4] C5] C6] C7] end).
  all: try (match goal with |- context [M565r] =>
    pose proof (check565_all x1 S) as C; unfold check565 in C;
    rewrite !andb_true_iff, !Z.leb_le, Z.eqb_eq in C; destruct C as [[[[[[C1 C2] C3] C4] C5] C6] C7] end).
  all: repeat split; try (let H := fresh in intros H; try congruence; clear - S); try reflexivity; try congruence.
  all: cbn [rep]; auto.
  all: try (apply (rep_one I_Gray8 false)); try (apply (rep_one I_Gray16 false));
    try (apply (rep_one I_RGB5 false)); try (apply (rep_one I_Float false));
    try (apply (rep_one I_Int16 false)); try (apply (rep_one I_UInt16 false));
    try (apply (rep_one I_Int32 false)); try (apply (rep_one I_UInt32 false)).
  all: try (eexists; split; [|reflexivity]; lia).
  all: try (eexists; reflexivity).
  all: try (eexists; split; [|reflexivity]; tauto).
  all: idtac.
  all: try (pose proof (check555_all x1 S) as C; unfold check555 in C;
    rewrite !andb_true_iff, !Z.leb_le, Z.eqb_eq in C; destruct C as [[[[[[C1 C2] C3] C4] C5] C6] C7];
    eexists; split; [|reflexivity]; lia).
Qed.

Lemma from_val hi m d : (0 < m <= 65535) -> m <= hi -> norm_val m d ->
  exists v, 0 <= v <= m /\ @fromNorm D hi m d = Some v /\ @toNorm D m v = d.
Proof.
  intros Hm Hh (v & Hv & ->). exists v. split; auto. split; auto. apply norm_roundtrip; auto.
Qed.

Lemma int_val_ok lo hi lo' hi' d : int_val lo' hi' d -> lo = lo' -> hi = hi' -> - 2 ^ 53 <= lo -> hi <= 2 ^ 53 ->
  exists v, lo <= v <= hi /\ @toInt D lo hi d = Some v /\ @lit D v = d.
Proof.
  intros (v & Hv & ->) -> -> Hl Hh. exists v. split; auto. split; auto. apply int_roundtrip; auto. lia.
Qed.

Lemma same_double_refl d : same_double d d. Proof. left; auto. Qed.

Lemma float_val_ok d : float_val d -> same_double (dwiden (dnarrow d)) d.
Proof.
  intros (x & ->). destruct (nan x) eqn:N.
  - right. destruct x; try discriminate. split; reflexivity.
  - left. rewrite narrow_widen by auto. reflexivity.
Qed.

(** A colour made of representable channels reads back as stored. *)
Lemma store_rep f (c : color D) :
  rep f false (c_r c) -> rep f true (c_g c) -> rep f false (c_b c) -> rep f false (c_a c) ->
  exists q c', setPixelNoGrayscaleImpl f c = Some q /\ stored pw f q /\
    getPixelImpl f q = Some c' /\ same_color pw c' (hold pw f c).
Proof.
  destruct c as [r g b a]. cbn [c_r c_g c_b c_a].
  intros Hr Hg Hb Ha.
  destruct f; cbn [rep] in Hr, Hg, Hb, Ha; cbn [setPixelNoGrayscaleImpl setCommon c_r c_g c_b c_a].
  (* Gray8 *)
  1: destruct (from_val 255 255 r ltac:(lia) ltac:(lia) Hr) as (v & Hv & E & T);
     unfold from8; rewrite E; cbn [oPZ1 obind].
  (* Gray16 *)
  2: destruct (from_val 65535 65535 r ltac:(lia) ltac:(lia) Hr) as (v & Hv & E & T);
     unfold from16; rewrite E; cbn [oPZ1 obind].
  (* RGB5 *)
  3: destruct (from_val 255 31 r ltac:(lia) ltac:(lia) Hr) as (v1 & Hv1 & E1 & T1);
     destruct (from_val 255 31 g ltac:(lia) ltac:(lia) Hg) as (v2 & Hv2 & E2 & T2);
     destruct (from_val 255 31 b ltac:(lia) ltac:(lia) Hb) as (v3 & Hv3 & E3 & T3);
     unfold from5; rewrite E1, E2, E3; cbn [oPack obind];
     destruct (pack555 v1 v2 v3 Hv1 Hv2 Hv3) as (P0 & P1 & P2 & P3); cbv zeta in *;
     set (w := Z.lor (Z.lor (Z.shiftl v1 10) (Z.shiftl v2 5)) v3 mod 2 ^ 16) in *.
  (* RGB565 *)
  4: destruct (from_val 255 31 r ltac:(lia) ltac:(lia) Hr) as (v1 & Hv1 & E1 & T1);
     destruct (from_val 255 63 g ltac:(lia) ltac:(lia) Hg) as (v2 & Hv2 & E2 & T2);
     destruct (from_val 255 31 b ltac:(lia) ltac:(lia) Hb) as (v3 & Hv3 & E3 & T3);
     unfold from5, from6; rewrite E1, E2, E3; cbn [oPack obind];
     destruct (pack565 v1 v2 v3 Hv1 Hv2 Hv3) as (P0 & P1 & P2 & P3); cbv zeta in *;
     set (w := Z.lor (Z.lor (Z.shiftl v1 11) (Z.shiftl v2 5)) v3 mod 2 ^ 16) in *.
  (* RGB8, RGBA8 *)
  5: destruct (from_val 255 255 r ltac:(lia) ltac:(lia) Hr) as (v1 & Hv1 & E1 & T1);
     destruct (from_val 255 255 g ltac:(lia) ltac:(lia) Hg) as (v2 & Hv2 & E2 & T2);
     destruct (from_val 255 255 b ltac:(lia) ltac:(lia) Hb) as (v3 & Hv3 & E3 & T3);
     destruct (from_val 255 255 a ltac:(lia) ltac:(lia) Ha) as (v4 & Hv4 & E4 & T4);
     unfold from8; rewrite E1, E2, E3, ?E4; cbn [oPZ3 oPZ4 obind].
  8: destruct (from_val 255 255 r ltac:(lia) ltac:(lia) Hr) as (v1 & Hv1 & E1 & T1);
     destruct (from_val 255 255 g ltac:(lia) ltac:(lia) Hg) as (v2 & Hv2 & E2 & T2);
     destruct (from_val 255 255 b ltac:(lia) ltac:(lia) Hb) as (v3 & Hv3 & E3 & T3);
     destruct (from_val 255 255 a ltac:(lia) ltac:(lia) Ha) as (v4 & Hv4 & E4 & T4);
     unfold from8; rewrite E1, E2, E3, ?E4; cbn [oPZ3 oPZ4 obind].
  (* RGB16, RGBA16 *)
  6: destruct (from_val 65535 65535 r ltac:(lia) ltac:(lia) Hr) as (v1 & Hv1 & E1 & T1);
     destruct (from_val 65535 65535 g ltac:(lia) ltac:(lia) Hg) as (v2 & Hv2 & E2 & T2);
     destruct (from_val 65535 65535 b ltac:(lia) ltac:(lia) Hb) as (v3 & Hv3 & E3 & T3);
     destruct (from_val 65535 65535 a ltac:(lia) ltac:(lia) Ha) as (v4 & Hv4 & E4 & T4);
     unfold from16; rewrite E1, E2, E3, ?E4; cbn [oPZ3 oPZ4 obind].
  9: destruct (from_val 65535 65535 r ltac:(lia) ltac:(lia) Hr) as (v1 & Hv1 & E1 & T1);
     destruct (from_val 65535 65535 g ltac:(lia) ltac:(lia) Hg) as (v2 & Hv2 & E2 & T2);
     destruct (from_val 65535 65535 b ltac:(lia) ltac:(lia) Hb) as (v3 & Hv3 & E3 & T3);
     destruct (from_val 65535 65535 a ltac:(lia) ltac:(lia) Ha) as (v4 & Hv4 & E4 & T4);
     unfold from16; rewrite E1, E2, E3, ?E4; cbn [oPZ3 oPZ4 obind].
  (* integers *)
  11: destruct (int_val_ok (- 2 ^ 15) (2 ^ 15 - 1) _ _ r Hr eq_refl eq_refl ltac:(lia) ltac:(lia))
        as (v & Hv & E & T); rewrite E; cbn [oPZ1 obind].
  12: destruct (int_val_ok 0 (2 ^ 16 - 1) _ _ r Hr eq_refl eq_refl ltac:(lia) ltac:(lia))
        as (v & Hv & E & T); rewrite E; cbn [oPZ1 obind].
  13: destruct (int_val_ok (- 2 ^ 31) (2 ^ 31 - 1) _ _ r Hr eq_refl eq_refl ltac:(lia) ltac:(lia))
        as (v & Hv & E & T); rewrite E; cbn [oPZ1 obind].
  14: destruct (int_val_ok 0 (2 ^ 32 - 1) _ _ r Hr eq_refl eq_refl ltac:(lia) ltac:(lia))
        as (v & Hv & E & T); rewrite E; cbn [oPZ1 obind].
  all: eexists; eexists; (split; [reflexivity|]).
  all: cbn [stored getPixelImpl hold].
  all: try match goal with H : field _ M555r 10 = _ |- _ => rewrite P1, P2, P3, T1, T2, T3 end.
  all: try match goal with H : field _ M565r 11 = _ |- _ => rewrite P1, P2, P3, T1, T2, T3 end.
  all: split; [unfold u8, u16, range; try lia; auto|].
  all: split; [reflexivity|].
  all: unfold same_color; cbn [c_r c_g c_b c_a gray].
  all: rewrite ?T, ?T1, ?T2, ?T3, ?T4.
  all: repeat split; try apply same_double_refl; try (apply float_val_ok; assumption).
Qed.

End Ops.

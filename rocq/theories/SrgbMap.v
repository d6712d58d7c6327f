(** A channel-wise computation on the pixels of a normalised format, stored back. *)

From Coq Require Import ZArith NArith List Bool Lia Reals Lra.
From Coq Require Import ZifyBool ZifyNat ZifyN.
From Flocq Require Import Core IEEE754.BinarySingleNaN IEEE754.Binary IEEE754.Bits.
From Verif Require Import Base FormatModel FloatModel FloatSpec FloatProofs ArithModel ArithSpec
  DoubleProofs TextureModel ImageModel ImageLoops ImageSpec ImageStoreProofs ImageGrayProofs
  ImageOpsProofs ImageApiProofs ImageValueProofs PropsColor PropsSrgb SrgbSpec Srgb64 SrgbChannel.
Import ListNotations.
Local Open Scope R_scope.

(** Alpha as a fraction; 1 for formats without alpha. *)
Definition alpha_frac (f : imgfmt) (l : list Z) : R :=
  match f, alpha_of f l with
  | I_RGBA8, Some a => IZR a / 255
  | I_RGBA16, Some a => IZR a / 65535
  | _, _ => 1
  end%R.

Lemma Forall2_three {X Y} (P : X -> Y -> Prop) a b c l : Forall2 P [a; b; c] l ->
  exists x y z, l = [x; y; z] /\ P a x /\ P b y /\ P c z.
Proof.
  intros F. inversion_clear F as [|? x ? l1 Hx F1]. inversion_clear F1 as [|? y ? l2 Hy F2].
  inversion_clear F2 as [|? z ? l3 Hz F3]. inversion_clear F3. exists x, y, z. auto.
Qed.

Section Map.
Context (pw : double -> double -> double).
Local Notation D := (double_arith pw).
Context (g : color D -> color D) (want : list R -> R -> list R) (t : R) (equal : Prop).

Definition chan (d : double) (y : R) : Prop :=
  dfinite d = true /\ 0 <= y <= 1 /\ Rabs (dreal d - y) <= t.

Definition maxima (m : Z) : Prop := In m [31; 63; 255; 65535]%Z.

Context (H : forall r gr b mr mg mb (a : double) af, maxima mr -> maxima mg -> maxima mb ->
  (0 <= r <= mr)%Z -> (0 <= gr <= mg)%Z -> (0 <= b <= mb)%Z ->
  dfinite a = true -> 0 <= dreal a <= 1 -> 0 <= af <= 1 -> Rabs (dreal a - af) <= / IZR (2 ^ 53) ->
  let c := g (C4 (@toNorm D mr r) (@toNorm D mg gr) (@toNorm D mb b) a) in
  Forall2 chan [c_r c; c_g c; c_b c] (want [IZR r / IZR mr; IZR gr / IZR mg; IZR b / IZR mb] af) /\ c_a c = a).
Context (SYM : forall x a, exists y, want [x; x; x] a = [y; y; y]).
Context (EQ : equal -> forall c, c_r (g c) = c_g (g c) /\ c_r (g c) = c_b (g c)).

Definition near_step (c : Z * Z) (y : R) : Prop :=
  Rabs (IZR (fst c) - y * IZR (snd c)) <= / 2 + IZR (snd c) * t + / IZR (2 ^ 28).

Definition equal_channels (l : list (Z * Z)) : Prop :=
  match l with
  | [r; gr; b] => (snd r = snd gr -> fst r = fst gr) /\ (snd r = snd b -> fst r = fst b)
  | _ => False
  end.

Definition mapped (f : imgfmt) (l l' : list Z) : Prop :=
  map snd (rgb_of f l') = map snd (rgb_of f l) /\
  Forall2 near_step (rgb_of f l') (want (map fraction (rgb_of f l)) (alpha_frac f l)) /\
  (equal -> equal_channels (rgb_of f l')) /\
  alpha_of f l' = alpha_of f l.

Lemma one_ok : dfinite (@lit D 1) = true /\ dreal (@lit D 1) = 1.
Proof. destruct (double_of_Z_ok 1 ltac:(simpl; lia)) as [R F]. split; assumption. Qed.

(** Three channels, read, changed and ready to be stored. *)
Lemma three r gr b mr mg mb (a : double) af : maxima mr -> maxima mg -> maxima mb ->
  (0 <= r <= mr)%Z -> (0 <= gr <= mg)%Z -> (0 <= b <= mb)%Z ->
  dfinite a = true -> 0 <= dreal a <= 1 -> 0 <= af <= 1 -> Rabs (dreal a - af) <= / IZR (2 ^ 53) ->
  let c := g (C4 (@toNorm D mr r) (@toNorm D mg gr) (@toNorm D mb b) a) in
  c_a c = a /\
  exists yr yg yb vr vg vb, want [IZR r / IZR mr; IZR gr / IZR mg; IZR b / IZR mb] af = [yr; yg; yb] /\
    (forall hi, (mr <= hi)%Z -> @fromNorm D hi mr (c_r c) = Some vr) /\
    (forall hi, (mg <= hi)%Z -> @fromNorm D hi mg (c_g c) = Some vg) /\
    (forall hi, (mb <= hi)%Z -> @fromNorm D hi mb (c_b c) = Some vb) /\
    (0 <= vr <= mr)%Z /\ (0 <= vg <= mg)%Z /\ (0 <= vb <= mb)%Z /\
    near_step (vr, mr) yr /\ near_step (vg, mg) yg /\ near_step (vb, mb) yb /\
    (equal -> (mr = mg -> vr = vg) /\ (mr = mb -> vr = vb)).
Proof.
  intros Mr Mg Mb Hr Hg Hb Fa Ba Af Na c.
  destruct (H r gr b mr mg mb a af Mr Mg Mb Hr Hg Hb Fa Ba Af Na) as [F A]. fold c in F, A.
  split; [exact A|].
  assert (ST : forall m d y, maxima m -> chan d y -> exists v,
    (forall hi, (m <= hi)%Z -> @fromNorm D hi m d = Some v) /\ (0 <= v <= m)%Z /\ near_step (v, m) y).
  { intros m d y Mm (Fd & By & Nd).
    assert (Bm : (0 < m <= 65535)%Z) by (cbn [In maxima] in Mm; unfold maxima in Mm; cbn [In] in Mm; lia).
    destruct (fromNorm_tol pw m m d y t Bm ltac:(lia) Fd By Nd) as (v & Ev & Bv & Nv).
    exists v. split; [|split; [exact Bv|exact Nv]]. intros hi Hh.
    destruct (fromNorm_value pw hi m d Bm Hh Fd) as [E1 _].
    destruct (fromNorm_value pw m m d Bm ltac:(lia) Fd) as [E2 _]. congruence. }
  destruct (Forall2_three _ _ _ _ _ F) as (yr & yg & yb & -> & Cr & Cg & Cb).
  destruct (ST mr _ _ Mr Cr) as (vr & Er & Br & Nr).
  destruct (ST mg _ _ Mg Cg) as (vg & Eg & Bg & Ng).
  destruct (ST mb _ _ Mb Cb) as (vb & Eb & Bb & Nb).
  exists yr, yg, yb, vr, vg, vb. split; [reflexivity|].
  do 9 (split; [assumption|]). intros Q. destruct (EQ Q (C4 (@toNorm D mr r) (@toNorm D mg gr) (@toNorm D mb b) a)) as [Q1 Q2].
  fold c in Q1, Q2. split; intros <-.
  - specialize (Er mr ltac:(lia)). specialize (Eg mr ltac:(lia)). congruence.
  - specialize (Er mr ltac:(lia)). specialize (Eb mr ltac:(lia)). congruence.
Qed.

Lemma maxima_of m : In m [31; 63; 255; 65535]%Z -> maxima m.
Proof. auto. Qed.

Lemma norm_map (b : bitmap D) : good pw b -> normalised (b_fmt b) ->
  exists b', mapPixels g b = Some b' /\ good pw b' /\ same_shape b b' /\
    forall x y, within pw b x y -> exists l l', at_ pw b x y = PZ l /\ at_ pw b' x y = PZ l' /\
      mapped (b_fmt b) l l'.
Proof.
  intros G F.
  destruct one_ok as [F1 R1].
  assert (A1 : Rabs (dreal (@lit D 1) - 1) <= / IZR (2 ^ 53)).
  { rewrite R1. replace (1 - 1) with 0 by ring. rewrite Rabs_R0.
    left. apply Rinv_0_lt_compat, IZR_lt. reflexivity. }
  assert (B1 : 0 <= dreal (@lit D 1) <= 1) by (rewrite R1; lra).
  apply (mapPixels_pix pw g b (fun p q => exists l l', p = PZ l /\ q = PZ l' /\ mapped (b_fmt b) l l')); [exact G|].
  intros p S.
  assert (M31 : maxima 31) by (cbn; auto). assert (M63 : maxima 63) by (cbn; auto).
  assert (M255 : maxima 255) by (cbn; auto). assert (M65535 : maxima 65535) by (cbn; auto 6).
  destruct F as [F|[F|[F|[F|[F|[F|[F|[F|[]]]]]]]]]; rewrite <- F in *;
    destruct p as [l|l|l]; destruct l as [|z1 [|z2 [|z3 [|z4 [|? ?]]]]]; try contradiction;
    cbn [stored] in S; unfold u8, u16, range in S;
    unfold mapStored; cbn [getPixelImpl obind gray setPixelNoGrayscaleImpl setCommon];
    unfold from8, from16, from5, from6, gray.
  - destruct (three z1 z1 z1 255 255 255 (@lit D 1) 1) as (A & yr & yg & yb & vr & vg & vb & W & Er & Eg & Eb & Br & Bg & Bb & Nr & Ng & Nb & Q); auto; try lra; try lia.
    destruct (SYM (IZR z1 / 255) 1) as [y Ey]. rewrite Ey in W. injection W as <- <- <-.
    rewrite (Er 255%Z) by lia. cbn [oPZ1 obind]. eexists. split; [reflexivity|].
    split; [cbn [stored]; unfold u8, range; lia|].
    exists [z1], [vr]. repeat (split; [reflexivity|]). split; [|split; [|reflexivity]].
    + cbn [rgb_of map alpha_frac alpha_of]. unfold fraction; cbn [fst snd]. rewrite Ey. do 3 (constructor; [assumption|]); constructor.
    + intros _. cbn. auto.
  - destruct (three z1 z1 z1 65535 65535 65535 (@lit D 1) 1) as (A & yr & yg & yb & vr & vg & vb & W & Er & Eg & Eb & Br & Bg & Bb & Nr & Ng & Nb & Q); auto; try lra; try lia.
    destruct (SYM (IZR z1 / 65535) 1) as [y Ey]. rewrite Ey in W. injection W as <- <- <-.
    rewrite (Er 65535%Z) by lia. cbn [oPZ1 obind]. eexists. split; [reflexivity|].
    split; [cbn [stored]; unfold u16, range; lia|].
    exists [z1], [vr]. repeat (split; [reflexivity|]). split; [|split; [|reflexivity]].
    + cbn [rgb_of map alpha_frac alpha_of]. unfold fraction; cbn [fst snd]. rewrite Ey. do 3 (constructor; [assumption|]); constructor.
    + intros _. cbn. auto.
  - destruct (fields555 z1 ltac:(lia)) as (E1 & E2 & E3). rewrite E1, E2, E3.
    destruct (three (z1 / 1024 mod 32) (z1 / 32 mod 32) (z1 mod 32) 31 31 31 (@lit D 1) 1) as (A & yr & yg & yb & vr & vg & vb & W & Er & Eg & Eb & Br & Bg & Bb & Nr & Ng & Nb & Q); auto; try lra; try lia.
    rewrite (Er 255%Z), (Eg 255%Z), (Eb 255%Z) by lia. cbn [oPack obind]. eexists. split; [reflexivity|].
    pose proof (pack555 vr vg vb Br Bg Bb) as PK. cbv zeta in PK.
    set (w' := (Z.lor (Z.lor (Z.shiftl vr 10) (Z.shiftl vg 5)) vb mod 2 ^ 16)%Z) in *.
    destruct PK as (P0 & P1 & P2 & P3).
    split; [cbn [stored]; unfold u16, range; lia|].
    exists [z1], [w']. split; [reflexivity|]. split; [reflexivity|].
    unfold mapped. cbn [rgb_of]. destruct (fields555 w' ltac:(lia)) as (Q1 & Q2 & Q3).
    rewrite <- Q1, <- Q2, <- Q3, P1, P2, P3. split; [reflexivity|]. split; [|split; [|reflexivity]].
    + cbn [map alpha_frac alpha_of]. unfold fraction; cbn [fst snd]. rewrite W. do 3 (constructor; [assumption|]); constructor.
    + intros q. exact (Q q).
  - destruct (fields565' z1 ltac:(lia)) as (E1 & E2 & E3). rewrite E1, E2, E3.
    destruct (three (z1 / 2048) (z1 / 32 mod 64) (z1 mod 32) 31 63 31 (@lit D 1) 1) as (A & yr & yg & yb & vr & vg & vb & W & Er & Eg & Eb & Br & Bg & Bb & Nr & Ng & Nb & Q); auto; try lra; try lia.
    rewrite (Er 255%Z), (Eg 255%Z), (Eb 255%Z) by lia. cbn [oPack obind]. eexists. split; [reflexivity|].
    pose proof (pack565 vr vg vb Br Bg Bb) as PK. cbv zeta in PK.
    set (w' := (Z.lor (Z.lor (Z.shiftl vr 11) (Z.shiftl vg 5)) vb mod 2 ^ 16)%Z) in *.
    destruct PK as (P0 & P1 & P2 & P3).
    split; [cbn [stored]; unfold u16, range; lia|].
    exists [z1], [w']. split; [reflexivity|]. split; [reflexivity|].
    unfold mapped. cbn [rgb_of]. destruct (fields565' w' ltac:(lia)) as (Q1 & Q2 & Q3).
    rewrite <- Q1, <- Q2, <- Q3, P1, P2, P3. split; [reflexivity|]. split; [|split; [|reflexivity]].
    + cbn [map alpha_frac alpha_of]. unfold fraction; cbn [fst snd]. rewrite W. do 3 (constructor; [assumption|]); constructor.
    + intros q. exact (Q q).
  - destruct (three z1 z2 z3 255 255 255 (@lit D 1) 1) as (A & yr & yg & yb & vr & vg & vb & W & Er & Eg & Eb & Br & Bg & Bb & Nr & Ng & Nb & Q); auto; try lra; try lia.
    rewrite (Er 255%Z), (Eg 255%Z), (Eb 255%Z) by lia. cbn [oPZ3 obind]. eexists. split; [reflexivity|].
    split; [cbn [stored]; unfold u8, range; lia|].
    exists [z1; z2; z3], [vr; vg; vb]. repeat (split; [reflexivity|]). split; [|split; [|reflexivity]].
    + cbn [rgb_of map alpha_frac alpha_of]. unfold fraction; cbn [fst snd]. rewrite W. do 3 (constructor; [assumption|]); constructor.
    + intros q. exact (Q q).
  - destruct (three z1 z2 z3 65535 65535 65535 (@lit D 1) 1) as (A & yr & yg & yb & vr & vg & vb & W & Er & Eg & Eb & Br & Bg & Bb & Nr & Ng & Nb & Q); auto; try lra; try lia.
    rewrite (Er 65535%Z), (Eg 65535%Z), (Eb 65535%Z) by lia. cbn [oPZ3 obind]. eexists. split; [reflexivity|].
    split; [cbn [stored]; unfold u16, range; lia|].
    exists [z1; z2; z3], [vr; vg; vb]. repeat (split; [reflexivity|]). split; [|split; [|reflexivity]].
    + cbn [rgb_of map alpha_frac alpha_of]. unfold fraction; cbn [fst snd]. rewrite W. do 3 (constructor; [assumption|]); constructor.
    + intros q. exact (Q q).
  - destruct (toNorm_ok pw 255 z4) as (Fa & _ & Ba & Na); try lia.
    destruct (three z1 z2 z3 255 255 255 (@toNorm D 255 z4) (IZR z4 / 255)) as (A & yr & yg & yb & vr & vg & vb & W & Er & Eg & Eb & Br & Bg & Bb & Nr & Ng & Nb & Q); auto; try lra; try lia.
    { apply (unit_frac z4 255); lia. }
    rewrite (Er 255%Z), (Eg 255%Z), (Eb 255%Z), A, norm_roundtrip by lia. cbn [oPZ4 obind]. eexists. split; [reflexivity|].
    split; [cbn [stored]; unfold u8, range; lia|].
    exists [z1; z2; z3; z4], [vr; vg; vb; z4]. repeat (split; [reflexivity|]). split; [|split; [|reflexivity]].
    + cbn [rgb_of map alpha_frac alpha_of]. unfold fraction; cbn [fst snd]. rewrite W. do 3 (constructor; [assumption|]); constructor.
    + intros q. exact (Q q).
  - destruct (toNorm_ok pw 65535 z4) as (Fa & _ & Ba & Na); try lia.
    destruct (three z1 z2 z3 65535 65535 65535 (@toNorm D 65535 z4) (IZR z4 / 65535)) as (A & yr & yg & yb & vr & vg & vb & W & Er & Eg & Eb & Br & Bg & Bb & Nr & Ng & Nb & Q); auto; try lra; try lia.
    { apply (unit_frac z4 65535); lia. }
    rewrite (Er 65535%Z), (Eg 65535%Z), (Eb 65535%Z), A, norm_roundtrip by lia. cbn [oPZ4 obind]. eexists. split; [reflexivity|].
    split; [cbn [stored]; unfold u16, range; lia|].
    exists [z1; z2; z3; z4], [vr; vg; vb; z4]. repeat (split; [reflexivity|]). split; [|split; [|reflexivity]].
    + cbn [rgb_of map alpha_frac alpha_of]. unfold fraction; cbn [fst snd]. rewrite W. do 3 (constructor; [assumption|]); constructor.
    + intros q. exact (Q q).
Qed.

End Map.

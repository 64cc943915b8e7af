(** * Proofs about stamped strings. *)
From Coq Require Import List NArith ZArith Bool Lia.
From Verif Require Import IoModel StampModel StampSpec.
Import ListNotations.
Open Scope N_scope.

Lemma slt_refl : forall a, slt a a = false.
Proof. induction a as [|x a IH]; cbn; [reflexivity|]. rewrite N.ltb_irrefl. exact IH. Qed.
Lemma slt_prefix : forall p a b, slt (p ++ a) (p ++ b) = slt a b.
Proof. induction p as [|x p IH]; intros; cbn; [reflexivity|]. rewrite N.ltb_irrefl. apply IH. Qed.
Lemma slt_two : forall x y s t, x < 100 -> y < 100 ->
  slt (two x ++ s) (two y ++ t) = if x <? y then true else if y <? x then false else slt s t.
Proof.
  intros x y s t A B. unfold two. cbn [app slt].
  pose proof (N.div_mod x 10 ltac:(lia)) as DX. pose proof (N.mod_lt x 10 ltac:(lia)) as MX.
  pose proof (N.div_mod y 10 ltac:(lia)) as DY. pose proof (N.mod_lt y 10 ltac:(lia)) as MY.
  set (u := x / 10) in *. set (u' := x mod 10) in *. set (v := y / 10) in *. set (v' := y mod 10) in *. clearbody u u' v v'.
  destruct (N.ltb_spec (48 + u) (48 + v)), (N.ltb_spec (48 + v) (48 + u)),
    (N.ltb_spec (48 + u') (48 + v')), (N.ltb_spec (48 + v') (48 + u')),
    (N.ltb_spec x y), (N.ltb_spec y x); try reflexivity; exfalso; lia.
Qed.
Lemma slt_four : forall x y s t, x < 10000 -> y < 10000 ->
  slt (four x ++ s) (four y ++ t) = if x <? y then true else if y <? x then false else slt s t.
Proof.
  intros x y s t A B. unfold four.
  pose proof (N.div_mod x 100 ltac:(lia)) as DX. pose proof (N.mod_lt x 100 ltac:(lia)) as MX.
  pose proof (N.div_mod y 100 ltac:(lia)) as DY. pose proof (N.mod_lt y 100 ltac:(lia)) as MY.
  set (u := x / 100) in *. set (u' := x mod 100) in *. set (v := y / 100) in *. set (v' := y mod 100) in *. clearbody u u' v v'.
  rewrite <- !app_assoc, !slt_two by lia.
  destruct (N.ltb_spec u v), (N.ltb_spec v u),
    (N.ltb_spec u' v'), (N.ltb_spec v' u'),
    (N.ltb_spec x y), (N.ltb_spec y x); try reflexivity; exfalso; lia.
Qed.

Lemma order_lemma : forall p q a b, valid a -> valid b -> (slt (stamped p q a) (stamped p q b) = true <-> earlier a b).
Proof.
  intros p q a b A B. destruct A as (A1 & A2 & A3 & A4 & A5 & A6), B as (B1 & B2 & B3 & B4 & B5 & B6).
  unfold stamped, put_time. rewrite slt_prefix. rewrite <- !app_assoc.
  rewrite slt_four, slt_two, slt_two, slt_prefix, slt_two, slt_two, slt_prefix, slt_two, slt_refl by lia.
  unfold earlier, earlier_day, same_day.
  destruct (N.ltb_spec (year a) (year b)); [split; intros; [lia|reflexivity]|].
  destruct (N.ltb_spec (year b) (year a)); [split; intros; [discriminate|lia]|].
  destruct (N.ltb_spec (mon a) (mon b)); [split; intros; [lia|reflexivity]|].
  destruct (N.ltb_spec (mon b) (mon a)); [split; intros; [discriminate|lia]|].
  destruct (N.ltb_spec (mday a) (mday b)); [split; intros; [lia|reflexivity]|].
  destruct (N.ltb_spec (mday b) (mday a)); [split; intros; [discriminate|lia]|].
  destruct (N.ltb_spec (hour a) (hour b)); [split; intros; [lia|reflexivity]|].
  destruct (N.ltb_spec (hour b) (hour a)); [split; intros; [discriminate|lia]|].
  destruct (N.ltb_spec (min a) (min b)); [split; intros; [lia|reflexivity]|].
  destruct (N.ltb_spec (min b) (min a)); [split; intros; [discriminate|lia]|].
  destruct (N.ltb_spec (sec a) (sec b)); [split; intros; [lia|reflexivity]|].
  destruct (N.ltb_spec (sec b) (sec a)); split; intros; try discriminate; lia.
Qed.

Lemma equal_lemma : forall p q a b, valid a -> valid b -> stamped p q a = stamped p q b -> a = b.
Proof.
  intros p q a b A B E.
  assert (N1 : ~ earlier a b) by (intros H; apply (order_lemma p q a b A B) in H; rewrite E, slt_refl in H; discriminate).
  assert (N2 : ~ earlier b a) by (intros H; apply (order_lemma p q b a B A) in H; rewrite E, slt_refl in H; discriminate).
  unfold earlier, earlier_day, same_day in N1, N2. destruct a, b; cbn in *. f_equal; lia.
Qed.

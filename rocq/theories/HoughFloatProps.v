(** * The Hough transform of planes in float arithmetic: the properties.  sin and cos are any library functions that are accurate within
    2^-24 and exact at 0; both readings ([wide]) of products with their results are covered.  The normals are entries of the table for any
    angles [t] and [f]. *)
From Coq Require Import Reals ZArith Lra Lia.
From Verif Require Import Base SingleModel HoughModel HoughSpec GisFloatSpec HoughFloatModel HoughFloatSpec HoughFloatProofs.
Open Scope R_scope.

(** C198: a point on the plane that getPlaneParam reports for a bin votes for this bin.  It need not: with bins of 1/7 the plane of bin 7 is
    at distance 1, and the points at distance 1 vote for bin 6. *)
Theorem C198_own_plane_refuted : exists rhoMin rhoRes k p, rhoRes = single (1 / 7) /\ forall wide sinf cosf, accurate sinf sin -> accurate cosf cos ->
  let n := normalf wide sinf cosf 0 0 in dot3 n p + heightf rhoMin rhoRes k = 0 /\ binf rhoMin rhoRes (rhof n p) = Ret (k - 1)%Z.
Proof.
  exists 0, seventh, 7%Z, (1, 0, 0). split; [symmetry; exact seventh_float|]. intros wide sinf cosf Hs Hc. cbv zeta. rewrite (axis_normal wide sinf cosf Hs Hc), seventh_plane, axis_rho. split; [cbn; lra|exact seventh_bin].
Qed.
Print Assumptions C198_own_plane_refuted.
(** What is missing: the vote may go to the bin below. *)
Theorem C198_own_plane_partial : forall wide sinf cosf t f p B rhoMin M rhoRes k, accurate sinf sin -> accurate cosf cos -> let n := normalf wide sinf cosf t f in
  0 < rhoRes -> within3 B p -> Rabs rhoMin <= M -> (0 < k < 2 ^ 31)%Z -> rhoRes * IZR k <= 2 * M -> (B + 2 * M) / 2 ^ 19 + (1 + rhoRes) / 2 ^ 43 < rhoRes ->
  dot3 n p + heightf rhoMin rhoRes k = 0 -> binf rhoMin rhoRes (rhof n p) = Ret (k - 1)%Z \/ binf rhoMin rhoRes (rhof n p) = Ret k.
Proof. intros wide sinf cosf t f p B rhoMin M rhoRes k Hs Hc n R0 Hp Hm K HK S E. exact (on_plane n p B rhoMin M rhoRes k R0 (table_within wide sinf cosf t f Hs Hc) Hp Hm K HK S E). Qed.
Print Assumptions C198_own_plane_partial.
Example C198_case : let r := / 10 in 0 < r /\ within3 10 (7, -3, 2) /\ Rabs (-5) <= 5 /\ r * IZR 99 <= 2 * 5 /\ (10 + 2 * 5) / 2 ^ 19 + (1 + r) / 2 ^ 43 < r.
Proof. cbv zeta. unfold within3. repeat split; try (apply Rabs_le); lra. Qed.

(** C199: a point votes for the bin that contains it, unless it is closer than the rounding errors to a border; a vote for a bin comes from
    a point in the bin, up to the rounding errors and the first bin (C57). *)
Theorem C199_sure : forall wide sinf cosf t f p B rhoMin M rhoRes k, accurate sinf sin -> accurate cosf cos -> let n := normalf wide sinf cosf t f in
  0 < rhoRes -> within3 B p -> Rabs rhoMin <= M -> (0 <= k < 2 ^ 31)%Z ->
  IZR k + blur B M rhoRes <= place n p rhoMin rhoRes < IZR k + 1 - blur B M rhoRes -> binf rhoMin rhoRes (rhof n p) = Ret k.
Proof. intros wide sinf cosf t f p B rhoMin M rhoRes k Hs Hc n R0 Hp Hm K H. exact (sure_vote n p B rhoMin M rhoRes k R0 (table_within wide sinf cosf t f Hs Hc) Hp Hm K H). Qed.
Print Assumptions C199_sure.
Theorem C199_vote : forall wide sinf cosf t f p B rhoMin M rhoRes k, accurate sinf sin -> accurate cosf cos -> let n := normalf wide sinf cosf t f in
  0 < rhoRes -> within3 B p -> Rabs rhoMin <= M -> (0 <= k)%Z -> binf rhoMin rhoRes (rhof n p) = Ret k ->
  IZR k - (if (k =? 0)%Z then 1 else 0) - blur B M rhoRes <= place n p rhoMin rhoRes <= IZR k + 1 + blur B M rhoRes.
Proof. intros wide sinf cosf t f p B rhoMin M rhoRes k Hs Hc n R0 Hp Hm K E. exact (vote_place n p B rhoMin M rhoRes k R0 (table_within wide sinf cosf t f Hs Hc) Hp Hm K E). Qed.
Print Assumptions C199_vote.
Theorem C199_defined : forall wide sinf cosf t f p B rhoMin M rhoRes, accurate sinf sin -> accurate cosf cos -> let n := normalf wide sinf cosf t f in
  0 < rhoRes -> within3 B p -> Rabs rhoMin <= M -> Rabs (place n p rhoMin rhoRes) + blur B M rhoRes <= 2147483647 -> exists k, binf rhoMin rhoRes (rhof n p) = Ret k.
Proof. intros wide sinf cosf t f p B rhoMin M rhoRes Hs Hc n R0 Hp Hm H. exact (bin_defined n p B rhoMin M rhoRes R0 (table_within wide sinf cosf t f Hs Hc) Hp Hm H). Qed.
Print Assumptions C199_defined.
(** The point (1.05, 0, 0) is in the middle of bin 60 of the bins of 1/10 from -5 on. *)
Example C199_case : within3 2 (105 / 100, 0, 0) /\ Rabs (-5) <= 5 /\ IZR 60 + blur 2 5 (1 / 10) <= place (1, 0, 0) (105 / 100, 0, 0) (-5) (1 / 10) < IZR 60 + 1 - blur 2 5 (1 / 10).
Proof. unfold within3, place, blur. repeat split; try (apply Rabs_le); lra. Qed.

(** C200: a point that votes for a bin is nearer than a bin, plus the rounding errors, to the plane that getPlaneParam reports for it. *)
Theorem C200_distance : forall wide sinf cosf t f p B rhoMin M rhoRes k, accurate sinf sin -> accurate cosf cos -> let n := normalf wide sinf cosf t f in
  0 < rhoRes -> within3 B p -> Rabs rhoMin <= M -> (0 <= k)%Z -> rhoRes * IZR k <= 2 * M -> binf rhoMin rhoRes (rhof n p) = Ret k ->
  Rabs (dot3 n p + heightf rhoMin rhoRes k) <= rhoRes + (B + 2 * M) / 2 ^ 19 + (1 + rhoRes) / 2 ^ 43.
Proof. intros wide sinf cosf t f p B rhoMin M rhoRes k Hs Hc n R0 Hp Hm K HK E. exact (vote_distance_f n p B rhoMin M rhoRes k R0 (table_within wide sinf cosf t f Hs Hc) Hp Hm K HK E). Qed.
Print Assumptions C200_distance.
Example C200_case : binf 0 (single (1 / 7)) (rhof (1, 0, 0) (1, 0, 0)) = Ret 6%Z. Proof. rewrite axis_rho, seventh_float. exact seventh_bin. Qed.

(** C201: the normals of a default initialised detector are within 2^-19 of the documented directions and unit vectors within 7 / 2^19; the
    first bin starts where it should up to 3 / 2^24 of its distance (and 2^-47 for underflow). *)
Theorem C201_normals : forall wide sinf cosf nt np it ip, accurate sinf sin -> accurate cosf cos -> (0 <= it < nt)%Z -> (0 <= ip < np)%Z -> (nt < 2 ^ 31)%Z -> (np < 2 ^ 31)%Z ->
  let n := normalf wide sinf cosf (anglef (thetaStepf nt) it 0) (anglef (phiStepf np) ip 0) in
  close3 (/ 2 ^ 19) n (direction (PI / 2 * IZR it / IZR nt) (2 * PI * IZR ip / IZR np)) /\ let '(a, b, c) := n in Rabs (a * a + b * b + c * c - 1) <= 7 / 2 ^ 19.
Proof.
  intros wide sinf cosf nt np it ip Hs Hc HT HP HN HN' n. assert (C : close3 (/ 2 ^ 19) n (direction (PI / 2 * IZR it / IZR nt) (2 * PI * IZR ip / IZR np))).
  { apply normal_near; auto; [|now apply phi_err]. apply (GisFloatProofs.err_weaken _ _ _ _ (theta_err nt it HT HN)). pose proof SingleProofs.V_pos. lra. }
  split; [exact C|]. replace (7 / 2 ^ 19) with (7 * / 2 ^ 19) by lra. apply (near_unit (/ 2 ^ 19) _ _ ltac:(lra) C). apply direction_unit.
Qed.
Print Assumptions C201_normals.
Theorem C201_start : forall rhoNum rhoRes, 0 <= rhoRes -> (0 <= rhoNum)%Z ->
  Rabs (rhoStartf rhoNum rhoRes + IZR (rhoNum ÷ 2) * rhoRes) <= 3 / 2 ^ 24 * (IZR (rhoNum ÷ 2) * rhoRes) + / 2 ^ 47 * (1 + rhoRes).
Proof.
  intros n r R0 N0. pose proof (start_err n r R0 N0) as H. replace (rhoStartf n r + IZR (n ÷ 2) * r) with (rhoStartf n r - - (IZR (n ÷ 2) * r)) by lra. eapply Rle_trans; [exact H|]. unfold SingleProofs.V. lra.
Qed.
Print Assumptions C201_start.
Example C201_case : (0 <= 3 < 90)%Z /\ (0 <= 100 < 360)%Z. Proof. lia. Qed.

(** C202: a point farther along the computed distance never votes for an earlier bin. *)
Theorem C202_monotone : forall rhoMin rhoRes rho rho' k k', 0 < rhoRes -> rho <= rho' -> binf rhoMin rhoRes rho = Ret k -> binf rhoMin rhoRes rho' = Ret k' -> (k <= k')%Z.
Proof. exact bin_monotone. Qed.
Print Assumptions C202_monotone.
Example C202_case : binf 0 seventh 1 = Ret 6%Z. Proof. exact seventh_bin. Qed.
(** Without a resolution there is no bin. *)
Theorem C202_no_resolution : forall rhoMin rho, binf rhoMin 0 rho = UB.
Proof. exact no_resolution. Qed.
Print Assumptions C202_no_resolution.

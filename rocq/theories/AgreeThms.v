(** * AgreeThms: composition, superposition and agreement of the classes of systems (C90) *)
From Coq Require Import ZArith Lra Lia String.
From Verif Require Import Arr ArrFacts Spec SpecDyn Numpy Pnnls GeomUtils Polyhedron PolyThms Dynamics Oracle PolyMore DynThms ZohThms SampThms OdeThms.
Open Scope R_scope.

Lemma map_repeat {A B} (f : A -> B) a n : map f (repeat a n) = repeat (f a) n.
Proof. induction n; [reflexivity|]. cbn. rewrite IHn. reflexivity. Qed.
Lemma mapM_ok {A B} (f : A -> res B) l : (forall a, In a l -> exists b, f a = Ok b) -> exists bs, mapM f l = Ok bs.
Proof.
  induction l as [|a l IH]; intros H; [exists []; reflexivity|]. destruct (H a (or_introl eq_refl)) as (b & Eb). destruct IH as (bs & Ebs); [intros a' Ha'; apply H; right; exact Ha'|]. exists (b :: bs). cbn [mapM]. rewrite Eb. cbn [bind]. rewrite Ebs. reflexivity.
Qed.
(*@ Theorem C90_linear_affine : LinearSystem(A, B).simulate and AffineSystem(A, B, 0).simulate agree for all arguments, also in what they raise; the two condense to the same A_bar, B_bar, whatever the offset of the affine system. *)
Lemma linear_affine A B k nx nu : system_shape A B nx nu ->
  (forall x u, lin_simulate (LSys A B k) x u = aff_simulate (ASys A B (zeros nx)) x u) /\
  forall c N, length c = nx -> lin_condense (LSys A B k) N = match aff_condense (ASys A B c) N with Ok (A_bar, B_bar, _) => Ok (A_bar, B_bar) | Err e => Err e end.
Proof.
  intros (HA & HB). assert (LA : length (rows A) = nx) by apply HA. assert (LB : length (rows B) = nx) by apply HB. split.
  - intros x u. revert x. induction u as [|v u IH]; intros x; [reflexivity|]. cbn [lin_simulate aff_simulate lA lB aA aB ac]. unfold np_mv. destruct (Nat.eqb (ncols A) (length x)); [|reflexivity]. cbn [bind]. destruct (Nat.eqb (ncols B) (length v)); [|reflexivity]. cbn [bind].
    rewrite (vadd_zeros_r nx) by len. rewrite IH. reflexivity.
  - intros c N Lc. unfold lin_condense. cbn [lA lB]. rewrite (proj1 (affine_constructor A B (D1 (zeros (nrows A)))) (zeros (nrows A))); [|unfold nrows; rewrite LA; symmetry; apply HA|unfold nrows; congruence|reflexivity|rewrite zeros_length; reflexivity]. cbn [bind].
    unfold aff_condense, condense_pwa_system, anx, anu. cbn [aA aB ac].
    assert (SQ : forall s : asys, mapM (fun m => match nth_error [s] m with Some s => Ok s | None => Err IndexError end) (repeat 0%nat N) = Ok (repeat s N)).
    { intros s. induction N as [|N IH]; [reflexivity|]. cbn [repeat mapM nth_error bind]. rewrite IH. reflexivity. }
    rewrite !SQ. cbn [bind]. rewrite !map_repeat. cbn [aA aB ac]. set (Q := mapM (fun i => productory (rev_to i (repeat A N))) (seq 0 (length (repeat 0%nat N)))). destruct Q as [lq|]; [|reflexivity]. cbn [bind]. destruct (np_vstack_list lq); [|reflexivity]. cbn [bind].
    match goal with |- context [mapM (condense_row ?a ?b ?c ?d ?e) ?l] => destruct (mapM (condense_row a b c d e) l) as [lb|] end; [|reflexivity]. cbn [bind]. destruct (np_vstack_list lb); [|reflexivity]. cbn [bind].
    assert (OK : forall c, exists v, mapM (condense_offset (nrows B) (repeat A N) (repeat c N)) (seq 1 (length (repeat 0%nat N) - 1)) = Ok v).
    { intros c0. apply mapM_ok. intros i Hi. apply in_seq in Hi. rewrite repeat_length in Hi. unfold condense_offset. destruct (mapM_ok (fun j => P <- productory (rev_slice i j (repeat A N)) ;; Ok (mv P (nth j (repeat c0 N) []))) (seq 0 i)) as (v & ->); [|eexists; reflexivity].
      intros j Hj. apply in_seq in Hj. destruct (rev_slice i j (repeat A N)) as [|P l'] eqn:E; [|eexists; reflexivity]. exfalso. apply (f_equal (@length mat)) in E. unfold rev_slice, slice in E. rewrite rev_length, firstn_length, skipn_length, repeat_length in E. cbn [length] in E. lia. }
    destruct (OK (zeros (nrows A))) as (v1 & ->). destruct (OK c) as (v2 & ->). reflexivity.
Qed.

(*@ Theorem C90_composition : Simulating over u1 followed by u2 is simulating over u1 and then over u2 from the last state, for linear, affine, piecewise affine systems and in closed loop; an error in the first part is the error of the whole. *)
Lemma simulate_composition :
  (forall S u1 u2 x, lin_simulate S x (u1 ++ u2) = (xs <- lin_simulate S x u1 ;; ys <- lin_simulate S (last xs []) u2 ;; Ok (removelast xs ++ ys))) /\
  (forall S u1 u2 x, aff_simulate S x (u1 ++ u2) = (xs <- aff_simulate S x u1 ;; ys <- aff_simulate S (last xs []) u2 ;; Ok (removelast xs ++ ys))) /\
  (forall W u1 u2 x, pwa_simulate W x (u1 ++ u2) = (q <- pwa_simulate W x u1 ;; r <- pwa_simulate W (last (fst q) []) u2 ;; Ok (removelast (fst q) ++ fst r, snd q ++ snd r))) /\
  (forall S K N1 N2 x, simulate_closed_loop S x (N1 + N2) K = (xs <- simulate_closed_loop S x N1 K ;; ys <- simulate_closed_loop S (last xs []) N2 K ;; Ok (removelast xs ++ ys))).
Proof.
  split; [|split; [|split]].
  - intros S u1 u2. assert (NE : forall u x xs, lin_simulate S x u = Ok xs -> xs <> []) by (intros [|v u] x xs; cbn; [intros [= <-]; discriminate|]; destruct (np_mv (lA S) x); [|discriminate]; cbn; destruct (np_mv (lB S) v); [|discriminate]; cbn; destruct (lin_simulate S _ u); [|discriminate]; intros [= <-]; discriminate).
    induction u1 as [|v u1 IH]; intros x.
    + cbn [app lin_simulate bind last removelast]. destruct (lin_simulate S x u2); reflexivity.
    + cbn [app lin_simulate]. destruct (np_mv (lA S) x) as [Ax|]; [|reflexivity]. cbn [bind]. destruct (np_mv (lB S) v) as [Bv|]; [|reflexivity]. cbn [bind]. rewrite IH. destruct (lin_simulate S (vadd Ax Bv) u1) as [xs|] eqn:E; [|reflexivity]. cbn [bind]. apply NE in E. destruct xs as [|x1 xs]; [congruence|]. change (last (x :: x1 :: xs) []) with (last (x1 :: xs) []). destruct (lin_simulate S (last (x1 :: xs) []) u2); reflexivity.
  - intros S u1 u2. assert (NE : forall u x xs, aff_simulate S x u = Ok xs -> xs <> []) by (intros [|v u] x xs; cbn; [intros [= <-]; discriminate|]; destruct (np_mv (aA S) x); [|discriminate]; cbn; destruct (np_mv (aB S) v); [|discriminate]; cbn; destruct (aff_simulate S _ u); [|discriminate]; intros [= <-]; discriminate).
    induction u1 as [|v u1 IH]; intros x.
    + cbn [app aff_simulate bind last removelast]. destruct (aff_simulate S x u2); reflexivity.
    + cbn [app aff_simulate]. destruct (np_mv (aA S) x) as [Ax|]; [|reflexivity]. cbn [bind]. destruct (np_mv (aB S) v) as [Bv|]; [|reflexivity]. cbn [bind]. rewrite IH. destruct (aff_simulate S (vadd (vadd Ax Bv) (ac S)) u1) as [xs|] eqn:E; [|reflexivity]. cbn [bind]. apply NE in E. destruct xs as [|x1 xs]; [congruence|]. change (last (x :: x1 :: xs) []) with (last (x1 :: xs) []). destruct (aff_simulate S (last (x1 :: xs) []) u2); reflexivity.
  - intros W u1 u2. assert (NE : forall u x q, pwa_simulate W x u = Ok q -> fst q <> []).
    { intros [|v u] x q; cbn; [intros [= <-]; discriminate|]. destruct (get_mode W x v) as [[m|]|]; try discriminate. cbn. destruct (nth_error (w_sys W) m) as [s|]; [|discriminate]. destruct (np_mv (aA s) x); [|discriminate]. cbn. destruct (np_mv (aB s) v); [|discriminate]. cbn. destruct (pwa_simulate W _ u) as [[xs ms]|]; [|discriminate]. intros [= <-]. discriminate. }
    induction u1 as [|v u1 IH]; intros x.
    + cbn [app pwa_simulate bind last removelast fst snd]. destruct (pwa_simulate W x u2) as [[xs ms]|]; reflexivity.
    + cbn [app pwa_simulate]. destruct (get_mode W x v) as [[m|]|]; [|reflexivity|reflexivity]. cbn [bind]. destruct (nth_error (w_sys W) m) as [s|]; [|reflexivity]. destruct (np_mv (aA s) x) as [Ax|]; [|reflexivity]. cbn [bind]. destruct (np_mv (aB s) v) as [Bv|]; [|reflexivity]. cbn [bind]. rewrite IH.
      destruct (pwa_simulate W (vadd (vadd Ax Bv) (ac s)) u1) as [[xs ms]|] eqn:E; [|reflexivity]. cbn [bind fst snd]. apply NE in E. cbn [fst] in E. destruct xs as [|x1 xs]; [congruence|]. change (last (x :: x1 :: xs) []) with (last (x1 :: xs) []). destruct (pwa_simulate W (last (x1 :: xs) []) u2) as [[ys ns]|]; reflexivity.
  - intros S K N1 N2. assert (NE : forall N x xs, simulate_closed_loop S x N K = Ok xs -> xs <> []).
    { intros [|N] x xs; cbn [simulate_closed_loop]; [intros [= <-]; discriminate|]. destruct (np_dot (lB S) K); [|discriminate]. cbn [bind]. destruct (np_madd (lA S) a); [|discriminate]. cbn [bind]. destruct (np_mv a0 x); [|discriminate]. cbn [bind]. destruct (simulate_closed_loop S _ N K); [|discriminate]. intros [= <-]. discriminate. }
    induction N1 as [|N1 IH]; intros x.
    + cbn [Nat.add simulate_closed_loop bind last removelast]. destruct (simulate_closed_loop S x N2 K); reflexivity.
    + cbn [Nat.add simulate_closed_loop]. destruct (np_dot (lB S) K) as [BK|]; [|reflexivity]. cbn [bind]. destruct (np_madd (lA S) BK) as [M|]; [|reflexivity]. cbn [bind]. destruct (np_mv M x) as [x'|]; [|reflexivity]. cbn [bind]. rewrite IH. destruct (simulate_closed_loop S x' N1 K) as [xs|] eqn:E; [|reflexivity]. cbn [bind]. apply NE in E. destruct xs as [|x1 xs]; [congruence|]. change (last (x :: x1 :: xs) []) with (last (x1 :: xs) []). destruct (simulate_closed_loop S (last (x1 :: xs) []) N2 K); reflexivity.
Qed.

(*@ Theorem C90_one_dynamics : A piecewise affine system whose modes all have the same dynamics simulates as that affine system whenever it returns; with a single mode it returns exactly when the affine system does and the domain accepts every pair that is reached, and the modes are all 0. *)
Lemma one_dynamics :
  (forall W s x u xs ms, (forall s', In s' (w_sys W) -> s' = s) -> pwa_simulate W x u = Ok (xs, ms) -> aff_simulate s x u = Ok xs /\ length ms = length u) /\
  (forall nx nu s d x u xs ms, pwa_simulate (PWA nx nu [s] [d]) x u = Ok (xs, ms) <-> 
    aff_simulate s x u = Ok xs /\ ms = repeat 0%nat (length u) /\ forall t, (t < length u)%nat -> contains tol7 d (nth t xs [] ++ nth t u []) = Ok true).
Proof.
  split.
  - intros W s x u xs ms Hs. revert x xs ms. induction u as [|v u IH]; intros x xs ms.
    + cbn. intros [= <- <-]. auto.
    + cbn [pwa_simulate aff_simulate]. destruct (get_mode W x v) as [[m|]|]; try discriminate. cbn [bind]. destruct (nth_error (w_sys W) m) as [s'|] eqn:En; [|discriminate]. apply nth_error_In in En. apply Hs in En. subst s'. destruct (np_mv (aA s) x) as [Ax|]; [|discriminate]. cbn [bind]. destruct (np_mv (aB s) v) as [Bv|]; [|discriminate]. cbn [bind].
      destruct (pwa_simulate W (vadd (vadd Ax Bv) (ac s)) u) as [[ys ns]|] eqn:E; [|discriminate]. cbn [bind]. intros [= <- <-]. destruct (IH _ _ _ E) as (-> & L). cbn. rewrite L. auto.
  - intros nx nu s d x u. revert x. induction u as [|v u IH]; intros x xs ms.
    + cbn. split; [intros [= <- <-]; repeat split; intros; lia|intros (E & -> & _); injection E as <-; reflexivity].
    + cbn [pwa_simulate aff_simulate]. unfold get_mode. cbn [w_dom w_sys get_mode_from]. destruct (contains tol7 d (x ++ v)) as [[|]|e] eqn:Ec; cbn [bind nth_error].
      * destruct (np_mv (aA s) x) as [Ax|]; [|split; [discriminate|intros (E & _); discriminate E]]. cbn [bind]. destruct (np_mv (aB s) v) as [Bv|]; [|split; [discriminate|intros (E & _); discriminate E]]. cbn [bind]. split.
        -- destruct (pwa_simulate _ _ u) as [[ys ns]|] eqn:E; [|discriminate]. cbn [bind]. intros [= <- <-]. apply IH in E. destruct E as (-> & -> & H). split; [reflexivity|]. split; [reflexivity|]. intros [|t] Ht; cbn [nth]; [exact Ec|]. apply H. cbn in Ht. lia.
        -- destruct (aff_simulate s (vadd (vadd Ax Bv) (ac s)) u) as [ys|] eqn:E; [|intros (E' & _); discriminate E']. cbn [bind]. intros (E' & -> & H). injection E' as <-. rewrite (proj2 (IH (vadd (vadd Ax Bv) (ac s)) ys (repeat 0%nat (length u)))); [reflexivity|]. split; [exact E|]. split; [reflexivity|]. intros t Ht. apply (H (S t)). cbn. lia.
      * split; [discriminate|]. intros (E & _ & H). specialize (H 0%nat ltac:(cbn; lia)). exfalso. assert (X : nth 0 xs [] = x).
        { destruct (np_mv (aA s) x); [|discriminate E]. cbn [bind] in E. destruct (np_mv (aB s) v); [|discriminate E]. cbn [bind] in E. destruct (aff_simulate s _ u); [|discriminate E]. cbn [bind] in E. injection E as <-. reflexivity. }
        rewrite X in H. cbn [nth] in H. congruence.
      * split; [discriminate|]. intros (E & _ & H). specialize (H 0%nat ltac:(cbn; lia)). exfalso. assert (X : nth 0 xs [] = x).
        { destruct (np_mv (aA s) x); [|discriminate E]. cbn [bind] in E. destruct (np_mv (aB s) v); [|discriminate E]. cbn [bind] in E. destruct (aff_simulate s _ u); [|discriminate E]. cbn [bind] in E. injection E as <-. reflexivity. }
        rewrite X in H. cbn [nth] in H. congruence.
Qed.

(** a x + b y *)
Definition comb (a b : R) (x y : vec) : vec := vadd (vscale a x) (vscale b y).
Lemma mv_comb M m n a b x y : shape M m n -> length x = n -> length y = n -> mv M (comb a b x y) = comb a b (mv M x) (mv M y).
Proof. intros HM Lx Ly. unfold comb. rewrite (mv_vadd M m n) by (auto; len). rewrite !mv_vscale. reflexivity. Qed.
Lemma np_mv_inv M x y : np_mv M x = Ok y -> length x = ncols M /\ y = mv M x.
Proof. unfold np_mv. destruct (Nat.eqb (ncols M) (length x)) eqn:E; [|discriminate]. intros [= <-]. apply Nat.eqb_eq in E. auto. Qed.
(*@ Theorem C90_superposition : The simulation of a linear system is linear in the initial state and the inputs together: if it returns xs for (x, us) and ys for (y, vs), it returns a xs + b ys for (a x + b y, a us + b vs). *)
Lemma superposition A B k nx nu a b us : system_shape A B nx nu -> forall vs x y xs ys, length vs = length us ->
  lin_simulate (LSys A B k) x us = Ok xs -> lin_simulate (LSys A B k) y vs = Ok ys ->
  lin_simulate (LSys A B k) (comb a b x y) (map2 (comb a b) us vs) = Ok (map2 (comb a b) xs ys).
Proof.
  intros (HA & HB). assert (LA : length (rows A) = nx) by apply HA. assert (LB : length (rows B) = nx) by apply HB. induction us as [|u us IH]; intros [|v vs] x y xs ys L; try discriminate L.
  - cbn. intros [= <-] [= <-]. reflexivity.
  - cbn [lin_simulate lA lB map2]. destruct (np_mv A x) as [Ax|] eqn:E1; [|discriminate]. destruct (np_mv B u) as [Bu|] eqn:E2; [|discriminate]. cbn [bind]. destruct (lin_simulate (LSys A B k) (vadd Ax Bu) us) as [xs'|] eqn:E3; [|discriminate]. intros [= <-].
    destruct (np_mv A y) as [Ay|] eqn:E4; [|discriminate]. destruct (np_mv B v) as [Bv|] eqn:E5; [|discriminate]. cbn [bind]. destruct (lin_simulate (LSys A B k) (vadd Ay Bv) vs) as [ys'|] eqn:E6; [|discriminate]. intros [= <-].
    apply np_mv_inv in E1, E2, E4, E5. destruct E1 as (L1 & ->), E2 as (L2 & ->), E4 as (L4 & ->), E5 as (L5 & ->). assert (NA : ncols A = nx) by apply HA. assert (NB : ncols B = nu) by apply HB. rewrite NA in L1, L4. rewrite NB in L2, L5.
    assert (LC : length (comb a b x y) = nx) by (unfold comb; len). assert (LD : length (comb a b u v) = nu) by (unfold comb; len). rewrite (np_mv_ok A nx nx), (np_mv_ok B nx nu) by assumption. cbn [bind].
    rewrite (mv_comb A nx nx), (mv_comb B nx nu) by assumption. replace (vadd (comb a b (mv A x) (mv A y)) (comb a b (mv B u) (mv B v))) with (comb a b (vadd (mv A x) (mv B u)) (vadd (mv A y) (mv B v))).
    + cbn in L. rewrite (IH vs (vadd (mv A x) (mv B u)) (vadd (mv A y) (mv B v)) xs' ys') by (auto; lia). reflexivity.
    + unfold comb. apply vec_ext; [len|]. intros i Hi. rewrite !nth_vadd, !nth_vscale, !nth_vadd by len. ring.
Qed.
(*@ Theorem C90_difference : The difference of two simulations of an affine system is a simulation of the linear system with the same A and B (from the difference of the initial states, with the differences of the inputs). *)
Lemma affine_difference A B c k nx nu us : system_shape A B nx nu -> length c = nx -> forall vs x y xs ys, length vs = length us ->
  aff_simulate (ASys A B c) x us = Ok xs -> aff_simulate (ASys A B c) y vs = Ok ys ->
  lin_simulate (LSys A B k) (vsub x y) (map2 vsub us vs) = Ok (map2 vsub xs ys).
Proof.
  intros (HA & HB) Lc. assert (LA : length (rows A) = nx) by apply HA. assert (LB : length (rows B) = nx) by apply HB. induction us as [|u us IH]; intros [|v vs] x y xs ys L; try discriminate L.
  - cbn. intros [= <-] [= <-]. reflexivity.
  - cbn [aff_simulate lin_simulate lA lB aA aB ac map2]. destruct (np_mv A x) as [Ax|] eqn:E1; [|discriminate]. destruct (np_mv B u) as [Bu|] eqn:E2; [|discriminate]. cbn [bind]. destruct (aff_simulate (ASys A B c) (vadd (vadd Ax Bu) c) us) as [xs'|] eqn:E3; [|discriminate]. intros [= <-].
    destruct (np_mv A y) as [Ay|] eqn:E4; [|discriminate]. destruct (np_mv B v) as [Bv|] eqn:E5; [|discriminate]. cbn [bind]. destruct (aff_simulate (ASys A B c) (vadd (vadd Ay Bv) c) vs) as [ys'|] eqn:E6; [|discriminate]. intros [= <-].
    apply np_mv_inv in E1, E2, E4, E5. destruct E1 as (L1 & ->), E2 as (L2 & ->), E4 as (L4 & ->), E5 as (L5 & ->). assert (NA : ncols A = nx) by apply HA. assert (NB : ncols B = nu) by apply HB. rewrite NA in L1, L4. rewrite NB in L2, L5.
    rewrite (np_mv_ok A nx nx), (np_mv_ok B nx nu) by (auto; len). cbn [bind]. rewrite (mv_vsub A nx nx), (mv_vsub B nx nu) by assumption.
    replace (vadd (vsub (mv A x) (mv A y)) (vsub (mv B u) (mv B v))) with (vsub (vadd (vadd (mv A x) (mv B u)) c) (vadd (vadd (mv A y) (mv B v)) c)).
    + cbn in L. rewrite (IH vs _ _ xs' ys' ltac:(lia) E3 E6). reflexivity.
    + apply vec_ext; [len|]. intros i Hi. rewrite nth_vsub, !nth_vadd, !nth_vsub by len. ring.
Qed.
(*@ Theorem C90_discretised : LinearSystem.from_continuous(A, B, h) and AffineSystem.from_continuous(A, B, 0, h) have the same matrices, and the offset of the latter is 0, with explicit_euler and (exact matrix exponential) with zero_order_hold. *)
Lemma discretised np A B nx nu h method : system_shape A B nx nu -> 0 <= h -> method = "explicit_euler"%string \/ method = "zero_order_hold"%string /\ is_expm (mscale h (zoh_matrix A B (zeros nx))) (np_expm np (mscale h (zoh_matrix A B (zeros nx)))) (nx + nu + 1) ->
  exists A_d B_d, lin_from_continuous np A B h method = Ok (LSys A_d B_d None) /\ aff_from_continuous np A B (D1 (zeros nx)) h method = Ok (ASys A_d B_d (zeros nx)).
Proof.
  intros SS Hh Hm. assert (LA : nrows A = nx) by apply SS. assert (LA' : length (rows A) = nx) by apply SS. assert (LB' : length (rows B) = nx) by apply SS.
  assert (LIN : forall Ad Bd, system_shape Ad Bd nx nu -> LinearSystem Ad Bd = Ok (LSys Ad Bd None)).
  { intros Ad Bd (SA & SB). apply (proj1 (linear_constructor Ad Bd)). destruct SA as (R1 & R2 & _), SB as (R3 & _). unfold nrows. lia. }
  assert (AFF : forall Ad Bd v, system_shape Ad Bd nx nu -> length v = nx -> AffineSystem Ad Bd (D1 v) = Ok (ASys Ad Bd v)).
  { intros Ad Bd v (SA & SB) Lv. destruct SA as (R1 & R2 & _), SB as (R3 & _). apply (proj1 (affine_constructor Ad Bd (D1 v))); unfold nrows; try lia. reflexivity. }
  unfold lin_from_continuous, aff_from_continuous. rewrite (check_ok A B None (Some h) nx nu SS I Hh), (check_ok A B (Some (D1 (zeros nx))) (Some h) nx nu SS) by (auto; try (exists (zeros nx); split; [reflexivity|len])). rewrite LA. cbn [bind]. destruct Hm as [-> | (-> & He)].
  - change (String.eqb "explicit_euler" "zero_order_hold") with false. rewrite String.eqb_refl. cbv iota. destruct (explicit_euler_ok A B (zeros nx) nx nu h SS ltac:(len) Hh) as (Ad & Bd & cd & EZ & SD & Ld & HZ). rewrite EZ. cbn [bind]. rewrite (LIN _ _ SD), (AFF _ _ _ SD Ld). exists Ad, Bd. split; [reflexivity|]. f_equal. f_equal.
    assert (LAd : length (rows Ad) = nx) by apply SD. assert (LBd : length (rows Bd) = nx) by apply SD. pose proof (HZ (zeros nx) (zeros nu) ltac:(len) ltac:(len)) as E. unfold affine_step in E. rewrite !mv_zeros, LAd, LBd, LA', LB', !(vadd_zeros_r nx) in E by len.
    apply vec_ext; [len|]. intros i Hi. apply (f_equal (fun l => nth i l 0)) in E. rewrite !nth_vadd, nth_vscale, nth_zeros in E by len. rewrite nth_zeros. lra.
  - rewrite String.eqb_refl. cbv iota. destruct (zoh_ok np A B (zeros nx) nx nu h SS ltac:(len) Hh He) as (Ad & Bd & cd & EZ & SD & Ld & HZ). rewrite EZ. cbn [bind]. rewrite (LIN _ _ SD), (AFF _ _ _ SD Ld). exists Ad, Bd. split; [reflexivity|]. f_equal. f_equal.
    assert (LAd : length (rows Ad) = nx) by apply SD. assert (LBd : length (rows Bd) = nx) by apply SD.
    assert (O : ode_solution A B (zeros nx) (zeros nu) nx h (fun _ => zeros nx)).
    { split; [intros t; len|]. intros t _ j Hj. rewrite !mv_zeros, LA', LB', !(vadd_zeros_r nx), nth_zeros by len. apply (derivable_pt_lim_const 0). }
    pose proof (HZ (zeros nu) (fun _ => zeros nx) ltac:(len) O) as E. cbv beta in E. rewrite !mv_zeros, LAd, LBd, (vadd_zeros_r nx) in E by len.
    apply vec_ext; [len|]. intros i Hi. apply (f_equal (fun l => nth i l 0)) in E. rewrite nth_vadd, nth_zeros in E by len. rewrite nth_zeros. lra.
Qed.
(*@ Example C90_example : The double integrator: u = (1, 1) from (0, 0) leads to (1, 2), u = (1) from (1, 2) to (3, 3), together u = (1, 1, 1) leads to (3, 3); twice the inputs lead to (2, 4); a piecewise affine system with this dynamics in the domain x1 <= 10 returns the same states and modes (0, 0). *)
Lemma agree_example : let A := Mat 2 [[1; 1]; [0; 1]] in let B := Mat 1 [[0]; [1]] in let d := Poly (Mat 3 [[1; 0; 0]]) [10] (Mat 3 []) [] None None None None None in
  system_shape A B 2 1 /\ lin_simulate (LSys A B None) [0; 0] [[1]; [1]] = Ok [[0; 0]; [0; 1]; [1; 2]] /\ lin_simulate (LSys A B None) [1; 2] [[1]] = Ok [[1; 2]; [3; 3]] /\ lin_simulate (LSys A B None) [0; 0] [[1]; [1]; [1]] = Ok [[0; 0]; [0; 1]; [1; 2]; [3; 3]] /\
  lin_simulate (LSys A B None) [0; 0] [[2]; [2]] = Ok [[0; 0]; [0; 2]; [2; 4]] /\
  pwa_simulate (PWA 2 1 [ASys A B (zeros 2)] [d]) [0; 0] [[1]; [1]] = Ok ([[0; 0]; [0; 1]; [1; 2]], [0%nat; 0%nat]).
Proof.
  cbv zeta. set (A := Mat 2 [[1; 1]; [0; 1]]). set (B := Mat 1 [[0]; [1]]). set (d := Poly (Mat 3 [[1; 0; 0]]) [10] (Mat 3 []) [] None None None None None).
  assert (HS : system_shape A B 2 1) by (repeat split; repeat constructor). split; [exact HS|].
  assert (E1 : lin_simulate (LSys A B None) [0; 0] [[1]; [1]] = Ok [[0; 0]; [0; 1]; [1; 2]]) by (cbn; do 2 f_equal; repeat f_equal; ring).
  assert (E2 : lin_simulate (LSys A B None) [1; 2] [[1]] = Ok [[1; 2]; [3; 3]]) by (cbn; do 2 f_equal; repeat f_equal; ring).
  split; [exact E1|]. split; [exact E2|]. split.
  { change [[1]; [1]; [1]] with ([[1]; [1]] ++ [[1]]). rewrite (proj1 simulate_composition), E1. cbn [bind last]. rewrite E2. reflexivity. }
  split.
  { pose proof (superposition A B None 2 1 1 1 [[1]; [1]] HS [[1]; [1]] [0; 0] [0; 0] _ _ eq_refl E1 E1) as Q. cbn [map2 comb vadd vscale map] in Q. replace (1 * 0 + 1 * 0) with 0 in Q by ring. replace (1 * 1 + 1 * 1) with 2 in Q by ring. replace (1 * 2 + 1 * 2) with 4 in Q by ring. exact Q. }
  apply (proj2 one_dynamics 2%nat 1%nat). split; [rewrite <- (proj1 (linear_affine A B None 2 1 HS)); exact E1|]. split; [reflexivity|].
  assert (C : forall x y u, x <= 10 -> contains tol7 d [x; y; u] = Ok true).
  { intros x y u Hx. unfold contains, np_mv. cbn. assert (Rleb (1 * x + (0 * y + (0 * u + 0)) - 10) tol7 = true) as -> by (apply Rleb_true; unfold tol7; lra). reflexivity. }
  intros t Ht. cbn in Ht. destruct t as [|[|t]]; [| |lia]; cbn [nth app]; apply C; lra.
Qed.

(** C91: what easy_fft and easy_ifft accept as [axes], and what an axis listed twice does. *)
From Verif Require Import M_Axes S_Axes L_Array L_Sum L_FFT L_FFT2 L_Axes T_FFT.
Local Open Scope Z_scope.

Lemma shift_ok {A} sgn ax (a : array A) js : asks (length (shape a)) ax js ->
  shift_call sgn ax a = Ok (mkArr (shape a) (fun ks => get a (roll_ix sgn 0 js (shape a) ks))).
Proof. intros H. unfold shift_call. now rewrite (asks_norm _ _ _ H). Qed.
Lemma fft_ok f ax (a : array C) js : asks (length (shape a)) ax js -> ~ is_int ax -> fft_call f ax a = steps f js a.
Proof. intros H Hi. unfold fft_call. destruct ax as [|i|l]; [|exfalso; now apply Hi|]; rewrite (asks_norm _ _ _ H); reflexivity. Qed.
Lemma mask_range js nd : map (fun q => existsb (Nat.eqb q) js) (seq 0 nd) = axes_mask nd (Some js). Proof. reflexivity. Qed.
Lemma inb_roll sgn js : forall sh ks i, inb sh ks -> inb sh (roll_ix sgn i js sh ks).
Proof.
  induction sh as [|n sh IH]; intros ks i Hk; cbn [roll_ix]; [exact Hk|]. destruct (inb_cons_inv _ _ _ Hk) as (k & r & -> & Hkn & Hr). apply inb_cons. split; [apply Z.mod_pos_bound; lia|now apply IH].
Qed.

(** The outcome of a call depends only on the argument and the shape: an integer that is no axis raises IndexError; a bare
    integer, even a valid one, raises TypeError; a transformed axis without points raises ValueError; everything else works
    and keeps the shape. *)
Theorem C91_outcome :
  forall (ax : axes_arg) (a : array C),
  let nd := length (shape a) in
  (out_of_range nd ax -> easy_fft_call ax a = Err IndexError /\ easy_ifft_call ax a = Err IndexError) /\
  (~ out_of_range nd ax -> exists js, asks nd ax js /\
     (is_int ax -> easy_fft_call ax a = Err TypeError /\ easy_ifft_call ax a = Err TypeError) /\
     (~ is_int ax -> empty_axis (shape a) js -> easy_fft_call ax a = Err ValueError /\ easy_ifft_call ax a = Err ValueError) /\
     (~ is_int ax -> ~ empty_axis (shape a) js -> exists b c, easy_fft_call ax a = Ok b /\ easy_ifft_call ax a = Ok c /\ shape b = shape a /\ shape c = shape a)).
Proof.
  intros ax a nd. split.
  - intros H. destruct (shift_axes_asks nd ax) as [(js & _ & Hj)|(E & _)]; [exfalso; eapply asks_in_range; eassumption|].
    unfold easy_fft_call, easy_ifft_call, shift_call. fold nd. rewrite E. split; reflexivity.
  - intros H. destruct (shift_axes_asks nd ax) as [(js & _ & Hj)|(_ & Hx)]; [|contradiction]. exists js. split; [exact Hj|].
    pose proof (asks_range _ _ _ Hj) as Hr. unfold easy_fft_call, easy_ifft_call. rewrite !(shift_ok _ ax a js Hj). cbn [bind]. split; [|split].
    + destruct ax; cbn [is_int]; try contradiction. intros _. split; reflexivity.
    + intros Hi He. rewrite !(fft_ok _ ax _ js) by assumption. rewrite !steps_err; cbn [shape]; auto.
    + intros Hi He. rewrite !(fft_ok _ ax _ js) by assumption.
      assert (D : forall f (x : array C), (forall m b, shape (f m b) = shape b) -> shape x = shape a -> exists b, steps f js x = Ok b /\ shape b = shape a).
      { intros f x Hf Hx. clear Hj. induction js as [|j js IH]; cbn [steps fold_right]; [exists x; auto|]. inversion Hr; subst. destruct IH as (b & E & Sb); auto.
        { intros (i & Hi' & Hz). apply He. exists i. split; [now right|exact Hz]. }
        fold (steps f js x). rewrite E. cbn [bind]. unfold along. rewrite Sb. destruct (Z.ltb_spec (nth j (shape a) 0) 1) as [X|X]; [exfalso; apply He; exists j; split; [now left|exact X]|].
        eexists. split; [reflexivity|]. now rewrite Hf. }
      destruct (D fftn (mkArr (shape a) (fun ks => get a (roll_ix 1 0 js (shape a) ks)))) as (b & -> & Sb); [reflexivity|reflexivity|].
      destruct (D ifftn (mkArr (shape a) (fun ks => get a (roll_ix (-1) 0 js (shape a) ks)))) as (c & -> & Sc); [reflexivity|reflexivity|].
      cbn [bind]. rewrite (shift_ok _ ax b js) by now rewrite Sb. rewrite (shift_ok _ ax c js) by now rewrite Sc. do 2 eexists. repeat (split; [reflexivity|]). split; assumption.
Qed.
Print Assumptions C91_outcome.

(** Distinct axes, counted from the front or from the back, in any order, or None: the transforms of C06 and C07 over these axes. *)
Theorem C91_distinct_axes :
  forall (ax : axes_arg) (a : array C) (js : list nat),
  asks (length (shape a)) ax js -> ~ is_int ax -> NoDup js -> ~ empty_axis (shape a) js ->
  exists b c, easy_fft_call ax a = Ok b /\ easy_ifft_call ax a = Ok c /\ arr_eq b (easy_fft (Some js) a) /\ arr_eq c (easy_ifft (Some js) a).
Proof.
  intros ax a js Hj Hi Hn He. pose proof (asks_range _ _ _ Hj) as Hr. unfold easy_fft_call, easy_ifft_call. rewrite !(shift_ok _ ax a js Hj). cbn [bind].
  rewrite !(fft_ok _ ax _ js) by assumption.
  destruct (fft_steps (mkArr (shape a) (fun ks => get a (roll_ix 1 0 js (shape a) ks))) js Hn Hr He) as (b & -> & Sb & Gb).
  destruct (ifft_steps (mkArr (shape a) (fun ks => get a (roll_ix (-1) 0 js (shape a) ks))) js Hn Hr He) as (c & -> & Sc & _ & Gc). cbn [shape] in Sb, Sc.
  cbn [bind]. rewrite (shift_ok _ ax b js) by now rewrite Sb. rewrite (shift_ok _ ax c js) by now rewrite Sc. do 2 eexists. split; [reflexivity|]. split; [reflexivity|]. split.
  - split; [exact Sb|]. cbn [shape get]. rewrite Sb. intros ks Hk. rewrite Gb. unfold easy_fft, fftshift, fftn, ifftshift. cbn [shape get]. rewrite roll_once, mask_range by auto.
    rewrite !dft_mop. apply mop_ext; [now apply inb_shift_ix|]. intros r Hr'. now rewrite roll_once by auto.
  - split; [exact Sc|]. cbn [shape get]. rewrite Sc. intros ks Hk. rewrite Gc. unfold easy_ifft, fftshift, ifftn, ifftshift. cbn [shape get]. rewrite roll_once, mask_range by auto.
    f_equal. rewrite !dft_mop. apply mop_ext; [now apply inb_shift_ix|]. intros r Hr'. now rewrite roll_once by auto.
Qed.
Print Assumptions C91_distinct_axes.

(** Axis j of n points listed twice: the transform of the transform along it is taken, n times the data reversed; but the
    element k comes from (4*(n//2) - k) mod n. For even n that is (-k) mod n, the reversal about n//2; for odd n it is (-k - 2) mod n, one
    element beside the reversal about n//2 that applying easy_fft twice gives. *)
Theorem C91_axis_twice :
  forall (ax : axes_arg) (a : array C) (j : nat) (ks : list Z),
  asks (length (shape a)) ax [j; j] -> inb (shape a) ks ->
  let n := nth j (shape a) 0 in let k := nth j ks 0 in
  let at_ v := firstn j ks ++ v :: skipn (S j) ks in
  exists b, easy_fft_call ax a = Ok b /\ shape b = shape a /\
    get b ks = Cmult (RtoC (IZR n)) (get a (at_ ((4 * (n / 2) - k) mod n))) /\
    get (easy_fft (Some [j]) (easy_fft (Some [j]) a)) ks = Cmult (RtoC (IZR n)) (get a (at_ ((2 * (n / 2) - k) mod n))).
Proof.
  intros ax a j ks Hj Hk n k at_. pose proof (asks_range _ _ _ Hj) as Hr. inversion Hr as [|? ? Hjn _]; subst.
  assert (Hi : ~ is_int ax) by (destruct ax; cbn; auto; destruct Hj as (? & _ & X); discriminate).
  pose proof (inb_length _ _ Hk) as Lk.
  assert (Hn : 0 < n). { apply (inb_in_pos (shape a) ks); [exact Hk|]. apply nth_In. exact Hjn. }
  assert (AT : forall v, put j v ks = at_ v). { intros v. rewrite put_nth. unfold at_. f_equal. assert (L : (j < length ks)%nat) by lia. clear - L. revert ks L. induction j as [|j IH]; intros [|q ks] L; cbn [length skipn] in *; try lia; auto. apply IH. lia. }
  assert (K2 : forall s, (s = 1 \/ s = -1) -> forall f js, inb (shape a) js -> mop (kcomp (kdft s) (kdft s)) (only (length (shape a)) j) (shape a) f js =
     Cmult (RtoC (IZR n)) (f (put j ((- nth j js 0) mod n) js))).
  { intros s Hs f js Hjs. apply (mop_only_pick _ (fun n => RtoC (IZR n)) (fun n k => (- k) mod n)); auto.
    - intros; now apply kdft2.
    - intros; now apply Z.mod_pos_bound. }
  assert (IM : forall v js, inb (shape a) js -> inb (shape a) (put j (v mod n) js)) by (intros v js Hjs; apply put_inb; [exact Hjs|apply Z.mod_pos_bound; exact Hn]).
  assert (NP : forall v, nth j (put j v ks) 0 = v) by (intros; apply nth_put; lia).
  assert (ST : forall x : array C, shape x = shape a -> steps fftn [j; j] x = Ok (fftn (axes_mask (length (shape a)) (Some [j])) (fftn (axes_mask (length (shape a)) (Some [j])) x))).
  { intros x Hx. assert (AL : forall y : array C, shape y = shape a -> along fftn j y = Ok (fftn (axes_mask (length (shape a)) (Some [j])) y)).
    { intros y Hy. unfold along. rewrite Hy. fold n. destruct (Z.ltb_spec n 1); [lia|reflexivity]. }
    cbn [steps fold_right bind]. rewrite (AL x Hx). cbn [bind]. now rewrite AL. }
  unfold easy_fft_call. rewrite (shift_ok _ ax a _ Hj). cbn [bind]. rewrite (fft_ok _ ax _ [j; j]) by assumption. rewrite ST by reflexivity. cbn [bind].
  rewrite (shift_ok _ ax _ [j; j]) by exact Hj. eexists. split; [reflexivity|]. split; [reflexivity|]. cbn [shape get]. split.
  - pose proof (fun sgn => roll_twice sgn j (shape a)) as RT. change (shape (fftn _ _)) with (shape a). cbn [fftn get shape].
    rewrite (RT (-1) ks 0%nat Hk : roll_ix (-1) 0 [j; j] (shape a) ks = _). fold n k. rewrite mask_only by exact Hjn.
    rewrite (dft_mop (-1)). rewrite (mop_ext' (kdft (-1)) _ _ _ (mop (kdft (-1)) (only (length (shape a)) j) (shape a) (fun js => get a (roll_ix 1 0 [j; j] (shape a) js)))) by (intros; apply dft_mop).
    rewrite mop_comp, K2 by (auto; now apply IM). f_equal. rewrite put_put, NP. match goal with |- context [roll_ix 1 0 [j; j] (shape a) ?q] => rewrite (RT 1 q 0%nat ltac:(now apply IM) : roll_ix 1 0 [j; j] (shape a) q = _) end. fold n. rewrite put_put, NP, AT. f_equal. f_equal.
    rewrite Zplus_mod_idemp_l. set (X := k + -1 * (2 * (n / 2))). replace (- (X mod n) + 1 * (2 * (n / 2))) with (2 * (n / 2) - X mod n) by ring.
    rewrite Zminus_mod_idemp_r. f_equal. unfold X. ring.
  - rewrite easy_fft_mop by exact Hk. change (shape (easy_fft (Some [j]) a)) with (shape a). rewrite mask_only by exact Hjn.
    rewrite (mop_ext (kcen (-1)) _ (shape a) _ (mop (kcen (-1)) (only (length (shape a)) j) (shape a) (get a)) ks Hk)
      by (intros js Hjs; rewrite easy_fft_mop by exact Hjs; now rewrite mask_only).
    rewrite mop_comp. rewrite (mop_only_pick _ (fun n => RtoC (IZR n)) (fun n k => (2 * (n / 2) - k) mod n)); auto.
    + fold n k. now rewrite AT.
    + intros; now apply kcen2.
    + intros; now apply Z.mod_pos_bound.
Qed.
Print Assumptions C91_axis_twice.

(** Cases that meet the hypotheses: axes (-1, 0) of a 3 x 4 array name axes 1 and 0; (1, -1) names axis 1 twice. *)
Example axes_witness : asks 2 (AxSeq [-1; 0]) [1%nat; 0%nat] /\ NoDup [1%nat; 0%nat] /\ ~ empty_axis [3; 4] [1%nat; 0%nat] /\
  asks 2 (AxSeq [1; -1]) [1%nat; 1%nat] /\ out_of_range 2 (AxSeq [0; 2]) /\ asks 2 (AxInt (-2)) [0%nat] /\ empty_axis [3; 0] [1%nat].
Proof.
  split; [repeat constructor; lia|]. split; [repeat constructor; cbn; intuition lia|]. split; [intros (j & [<- | [<- | []]] & H); cbn in H; lia|].
  split; [repeat constructor; lia|]. split; [exists 2; cbn; split; [auto|lia]|]. split; [exists 0%nat; split; [split; lia|reflexivity]|]. exists 1%nat. split; [now left|cbn; lia].
Qed.

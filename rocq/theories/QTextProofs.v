From Verif Require Import Base QrngModel QTextModel.
Ltac Zify.zify_post_hook ::= idtac.

Lemma dec_read : forall f n acc rest, 0 <= n < 10 ^ Z.of_nat f -> exists k, digits_in acc (dec f n ++ rest) = digits_in (acc * 10 ^ k + n) rest.
Proof.
  induction f as [|f IH]; intros n acc rest Hn; [change (10 ^ Z.of_nat 0) with 1 in Hn; exists 0; cbn [dec app]; replace (acc * 10 ^ 0 + n) with acc by (change (10 ^ 0) with 1; lia); reflexivity|].
  cbn [dec]. destruct (Z.ltb_spec n 10) as [H|H].
  - exists 1. cbn [app digits_in]. unfold is_dig. rewrite (proj2 (Z.leb_le 48 (48 + n))), (proj2 (Z.leb_le (48 + n) 57)) by lia. cbn [andb].
    f_equal. change (10 ^ 1) with 10. lia.
  - rewrite Nat2Z.inj_succ, Z.pow_succ_r in Hn by lia. rewrite <- app_assoc.
    destruct (IH (n / 10) acc ([48 + n mod 10] ++ rest)) as (k & E); [split; [apply Z.div_pos; lia|apply Z.div_lt_upper_bound; lia]|].
    rewrite E. cbn [app digits_in]. pose proof (Z.mod_pos_bound n 10 ltac:(lia)). unfold is_dig.
    rewrite (proj2 (Z.leb_le 48 (48 + n mod 10))), (proj2 (Z.leb_le (48 + n mod 10) 57)) by lia. cbn [andb].
    destruct (Z.le_gt_cases 0 k) as [Hk|Hk].
    + exists (k + 1). f_equal. rewrite Z.pow_add_r by lia. change (10 ^ 1) with 10. pose proof (Z.div_mod n 10 ltac:(lia)). lia.
    + (* a negative exponent gives 0 *)
      exists k. f_equal. rewrite (Z.pow_neg_r 10 k) by lia. pose proof (Z.div_mod n 10 ltac:(lia)). lia.
Qed.

Lemma dec_head : forall f n, (1 <= f)%nat -> 0 <= n -> exists c r, dec f n = c :: r /\ is_dig c = true.
Proof.
  induction f as [|f IH]; intros n Hf Hn; [lia|]. cbn [dec]. destruct (Z.ltb_spec n 10) as [H|H].
  - eexists _, _. split; [reflexivity|]. unfold is_dig. rewrite (proj2 (Z.leb_le 48 (48 + n))), (proj2 (Z.leb_le (48 + n) 57)) by lia. reflexivity.
  - destruct f as [|f].
    + cbn [dec app]. eexists _, _. split; [reflexivity|]. pose proof (Z.mod_pos_bound n 10 ltac:(lia)). unfold is_dig.
      rewrite (proj2 (Z.leb_le 48 (48 + n mod 10))), (proj2 (Z.leb_le (48 + n mod 10) 57)) by lia. reflexivity.
    + destruct (IH (n / 10) ltac:(lia)) as (c & r & E & H1); [apply Z.div_pos; lia|]. rewrite E. cbn [app]. eexists _, _. split; [reflexivity|exact H1].
Qed.

Lemma dig_not_ws : forall c, is_dig c = true -> is_ws c = false.
Proof.
  intros c H. unfold is_dig in H. apply Bool.andb_true_iff in H. destruct H as [H1 H2]. apply Z.leb_le in H1, H2. unfold is_ws.
  rewrite (proj2 (Z.leb_gt c 13)) by lia. rewrite (proj2 (Z.eqb_neq c 32)) by lia. rewrite Bool.andb_false_r. reflexivity.
Qed.

Lemma get_num_dec : forall n rest, 0 <= n < 2 ^ 64 -> (match rest with [] => True | c :: _ => is_dig c = false end) -> get_num (dec 20 n ++ rest) = Some (n, rest).
Proof.
  intros n rest Hn HR. unfold get_num. destruct (dec_head 20 n ltac:(lia) ltac:(lia)) as (c & r & E & HC).
  assert (ES : skip_ws (dec 20 n ++ rest) = dec 20 n ++ rest) by (rewrite E; cbn [app skip_ws]; rewrite dig_not_ws by exact HC; reflexivity).
  destruct (dec_read 20 n 0 rest) as (k & ER); [change (10 ^ Z.of_nat 20) with 100000000000000000000; lia|].
  rewrite ES. rewrite E in *. cbn [app] in *. rewrite HC. rewrite ER. replace (0 * 10 ^ k + n) with n by lia.
  destruct rest as [|d rest]; cbn [digits_in].
  - rewrite (proj2 (Z.ltb_lt n (2 ^ 64))) by lia. reflexivity.
  - rewrite HR. rewrite (proj2 (Z.ltb_lt n (2 ^ 64))) by lia. reflexivity.
Qed.

Lemma scan8_ok : forall L V (e : qeng L V), q_dim e < 2 ^ 64 -> 0 <= q_curr e < 2 ^ 64 -> is_ws (q_seq e) = false ->
  q_scan8 (q_text8 e) = Some (q_print e).
Proof.
  intros L V e Hd Hc HS. unfold q_scan8, q_text8.
  rewrite get_num_dec; [|unfold q_dim in *; lia|reflexivity]. cbn [bind].
  assert (E1 : skip_ws (32 :: q_seq e :: 32 :: dec 20 (q_curr e)) = q_seq e :: 32 :: dec 20 (q_curr e)).
  { cbn [skip_ws]. change (is_ws 32) with true. rewrite HS. reflexivity. }
  rewrite E1. unfold get_char. replace (skip_ws (q_seq e :: 32 :: dec 20 (q_curr e))) with (q_seq e :: 32 :: dec 20 (q_curr e)) by (cbn [skip_ws]; rewrite HS; reflexivity).
  cbn [bind].
  destruct (dec_head 20 (q_curr e) ltac:(lia) ltac:(lia)) as (c & r & E & HC).
  replace (skip_ws (32 :: dec 20 (q_curr e))) with (dec 20 (q_curr e)).
  2:{ cbn [skip_ws]. change (is_ws 32) with true. rewrite E. cbn [skip_ws]. rewrite dig_not_ws by exact HC. reflexivity. }
  rewrite <- (app_nil_r (dec 20 (q_curr e))). rewrite get_num_dec by (try lia; exact I). reflexivity.
Qed.

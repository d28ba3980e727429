(** The arithmetic of the calculators: the loops of the standard library
    compute the mathematical operation or overflow. *)
From Coq Require Import ZArith.
From Verif Require Export SpecCalc Calc.
Local Open Scope Z_scope.

Lemma checked_fits v : checked v = match fits v with Some v => Ok v | None => Panic POverflow end.
Proof. unfold checked, i64_ok, fits. by destruct (_ && _). Qed.
Lemma fits_ok v w : fits v = Some w <-> w = v /\ - 2 ^ 63 <= v < 2 ^ 63.
Proof.
  unfold fits. destruct ((- 2 ^ 63 <=? v) && (v <? 2 ^ 63)) eqn:E.
  - apply andb_true_iff in E as [H1%Z.leb_le H2%Z.ltb_lt]. split; [intros [= ->]; lia|]. by intros [-> _].
  - apply andb_false_iff in E. split; [done|]. intros [_ [H1 H2]]. destruct E as [E|E]; [apply Z.leb_gt in E|apply Z.ltb_ge in E]; lia.
Qed.
Lemma fits_none v : fits v = None <-> ~ (- 2 ^ 63 <= v < 2 ^ 63).
Proof. destruct (fits v) as [w|] eqn:E; [apply fits_ok in E; naive_solver|]. split; [|done]. intros _ H. assert (H' : fits v = Some v) by (by apply fits_ok). congruence. Qed.
Lemma i64_ok_iff v : i64_ok v = true <-> - 2 ^ 63 <= v < 2 ^ 63.
Proof. unfold i64_ok. rewrite andb_true_iff, Z.leb_le, Z.ltb_lt. lia. Qed.

(** ** Power *)
Lemma square_not_2_63 b : b * b <> 2 ^ 63.
Proof.
  intros H. assert (Hb : Z.abs b * Z.abs b = 2 ^ 63) by (rewrite <- Z.abs_mul, H; done).
  destruct (Z.le_gt_cases (Z.abs b) 3037000499).
  - assert (Z.abs b * Z.abs b <= 3037000499 * 3037000499) by (apply Z.mul_le_mono_nonneg; lia). lia.
  - assert (3037000500 * 3037000500 <= Z.abs b * Z.abs b) by (apply Z.mul_le_mono_nonneg; lia). lia.
Qed.
Lemma pow_pos_ge b n : b <> 0 -> 0 <= n -> 1 <= Z.abs (b ^ n).
Proof. intros Hb Hn. assert (b ^ n <> 0) by (by apply Z.pow_nonzero). lia. Qed.
Lemma pow_even b n : 0 <= n -> (b * b) ^ n = b ^ n * b ^ n.
Proof. intros. by rewrite Z.pow_mul_l. Qed.
Lemma mul_abs_le a c : 1 <= Z.abs c -> Z.abs a <= Z.abs (a * c).
Proof. intros H. rewrite Z.abs_mul. nia. Qed.

Lemma pow_loop_value e : forall base acc, (base = 0 \/ acc <> 0) -> - 2 ^ 63 <= acc < 2 ^ 63 ->
  pow_loop base acc e = checked (acc * base ^ Zpos e).
Proof.
  induction e as [e IH|e IH|]; intros base acc Hz Ha; cbn [pow_loop].
  - rewrite Pos2Z.inj_xI, Z.pow_add_r, Z.pow_mul_r, Z.pow_1_r, (Z.pow_2_r base) by lia.
    assert (Ef : acc * ((base * base) ^ Zpos e * base) = acc * base * (base * base) ^ Zpos e) by ring. rewrite Ef. clear Ef.
    destruct (decide (base = 0)) as [->|Hb].
    { rewrite !Z.mul_0_r. change (checked 0) with (Ok 0). cbn [rbind]. rewrite IH; [done|by left|lia]. }
    assert (Hsq : 1 <= Z.abs ((base * base) ^ Zpos e)) by (apply pow_pos_ge; nia).
    assert (Hsq2 : 0 <= (base * base) ^ Zpos e) by (apply Z.pow_nonneg; nia).
    unfold checked at 1. destruct (i64_ok (acc * base)) eqn:E1; cbn [rbind].
    + unfold checked at 1. destruct (i64_ok (base * base)) eqn:E2; cbn [rbind].
      * apply i64_ok_iff in E1. apply IH; [right; nia|done].
      * (* base*base overflows: so does the result *)
        assert (2 ^ 63 < base * base).
        { pose proof (square_not_2_63 base). destruct (Z.lt_total (base * base) (2 ^ 63)) as [H1|[H1|H1]]; [|done|done].
          assert (E3 : i64_ok (base * base) = true) by (apply i64_ok_iff; nia). congruence. }
        unfold checked. destruct (i64_ok (acc * base * (base * base) ^ Zpos e)) eqn:E3; [|done]. exfalso.
        apply i64_ok_iff in E3. assert (Hge : base * base <= (base * base) ^ Zpos e).
        { replace (Zpos e) with (1 + (Zpos e - 1)) by lia. rewrite Z.pow_add_r, Z.pow_1_r by lia.
          assert (1 <= (base * base) ^ (Zpos e - 1)).
          { assert (1 <= Z.abs ((base * base) ^ (Zpos e - 1))) by (apply pow_pos_ge; nia). assert (0 <= (base * base) ^ (Zpos e - 1)) by (apply Z.pow_nonneg; nia). lia. }
          nia. }
        assert (Hac : acc * base <> 0) by nia. generalize dependent (acc * base). intros m; intros. generalize dependent ((base * base) ^ Zpos e). intros w; intros. assert (Hm : m <= -1 \/ 1 <= m) by lia. destruct Hm; nia.
    + unfold checked. destruct (i64_ok (acc * base * (base * base) ^ Zpos e)) eqn:E3; [|done]. exfalso. apply i64_ok_iff in E3.
      assert (E1' : ~ (- 2 ^ 63 <= acc * base < 2 ^ 63)) by (rewrite <- i64_ok_iff, E1; done).
      generalize dependent (acc * base). intros m; intros. generalize dependent ((base * base) ^ Zpos e). intros w; intros.
      assert (1 <= w) by lia. destruct (Z.le_gt_cases 0 m); nia.
  - rewrite Pos2Z.inj_xO, Z.pow_mul_r, (Z.pow_2_r base) by lia.
    destruct (decide (base = 0)) as [->|Hb].
    { rewrite Z.mul_0_r. change (checked 0) with (Ok 0). cbn [rbind]. rewrite IH; [done|by left|done]. }
    unfold checked at 1. destruct (i64_ok (base * base)) eqn:E2; cbn [rbind].
    + apply IH; [right; by destruct Hz|done].
    + assert (2 ^ 63 < base * base).
      { pose proof (square_not_2_63 base). destruct (Z.lt_total (base * base) (2 ^ 63)) as [H1|[H1|H1]]; [|done|done].
        assert (E3 : i64_ok (base * base) = true) by (apply i64_ok_iff; nia). congruence. }
      unfold checked. destruct (i64_ok (acc * (base * base) ^ Zpos e)) eqn:E3; [|done]. exfalso.
      apply i64_ok_iff in E3. assert (Hge : base * base <= (base * base) ^ Zpos e).
      { replace (Zpos e) with (1 + (Zpos e - 1)) by lia. rewrite Z.pow_add_r, Z.pow_1_r by lia.
        assert (1 <= (base * base) ^ (Zpos e - 1)).
        { assert (1 <= Z.abs ((base * base) ^ (Zpos e - 1))) by (apply pow_pos_ge; nia). assert (0 <= (base * base) ^ (Zpos e - 1)) by (apply Z.pow_nonneg; nia). lia. }
        nia. }
      assert (Hac : acc <> 0) by (by destruct Hz). generalize dependent ((base * base) ^ Zpos e). intros w; intros.
      assert (Hm : acc <= -1 \/ 1 <= acc) by lia. destruct Hm; nia.
  - by rewrite Z.pow_1_r.
Qed.
Lemma i64_pow_value x y : i64_pow x (i64_as_u32 y) = match fits (x ^ (y mod 2 ^ 32)) with Some v => Ok v | None => Panic POverflow end.
Proof.
  rewrite <- checked_fits. unfold i64_pow, i64_as_u32. assert (H : 0 <= y mod 2 ^ 32) by (apply Z.mod_pos_bound; lia).
  destruct (y mod 2 ^ 32) as [|e|e] eqn:E; [done| |lia]. cbn [Z.to_N]. rewrite pow_loop_value; [by rewrite Z.mul_1_l|by right|lia].
Qed.
Lemma i64_div_value x y : i64_div x y = match (if y =? 0 then None else fits (Z.quot x y)) with Some v => Ok v | None => Panic POverflow end.
Proof. unfold i64_div. destruct (y =? 0); [done|]. apply checked_fits. Qed.

(** ** Reading integers *)
Lemma to_digit_ok c : digit c = true -> to_digit c = Some (Z.of_N c - 48) /\ 0 <= Z.of_N c - 48 <= 9.
Proof. unfold digit, to_digit. intros H. rewrite H. apply andb_true_iff in H as [H1%N.leb_le H2%N.leb_le]. split; [done|lia]. Qed.
Lemma decimal_grows l : forall v, forallb digit l = true -> 0 <= v -> v <= foldl (fun v c => 10 * v + (Z.of_N c - 48)) v l.
Proof.
  induction l as [|c l IH]; intros v H Hv; [done|]. cbn [foldl forallb] in *. apply andb_true_iff in H as [Hc H].
  apply to_digit_ok in Hc as [_ Hc]. specialize (IH (10 * v + (Z.of_N c - 48)) H). lia.
Qed.
Lemma parse_digits_value (neg : bool) l : forall v, forallb digit l = true -> 0 <= v -> (let sv := if neg then - v else v in - 2 ^ 63 <= sv < 2 ^ 63) ->
  parse_digits neg (if neg then - v else v) l = fits (let w := foldl (fun v c => 10 * v + (Z.of_N c - 48)) v l in if neg then - w else w).
Proof.
  induction l as [|c l IH]; intros v H Hv Hr; cbn [parse_digits foldl forallb] in *.
  { symmetry. by apply fits_ok. }
  apply andb_true_iff in H as [Hc H]. apply to_digit_ok in Hc as [-> Hc]. cbv zeta.
  pose proof (decimal_grows l (10 * v + (Z.of_N c - 48)) H) as Hg.
  set (d := Z.of_N c - 48) in *. set (w := foldl _ _ l) in *. cbv zeta in Hr.
  destruct (i64_ok _) eqn:E1; [destruct (i64_ok (if neg then _ else _)) eqn:E2|].
  - apply i64_ok_iff in E2. assert (Ev : (if neg then (if neg then - v else v) * 10 - d else (if neg then - v else v) * 10 + d) = (if neg then - (10 * v + d) else 10 * v + d)) by (destruct neg; lia).
    rewrite Ev in *. rewrite IH; [done|done|lia|done].
  - symmetry. apply fits_none. intros Hf. assert (E2' : ~ i64_ok (if neg then (if neg then - v else v) * 10 - d else (if neg then - v else v) * 10 + d) = true) by (by rewrite E2).
    apply E2', i64_ok_iff. destruct neg; lia.
  - symmetry. apply fits_none. intros Hf. assert (E1' : ~ i64_ok ((if neg then - v else v) * 10) = true) by (by rewrite E1).
    apply E1', i64_ok_iff. destruct neg; lia.
Qed.
Lemma parse_i64_value sg ds : sign sg = true -> digits ds = true -> parse_i64 (sg ++ ds) = fits (signed sg (decimal ds)).
Proof.
  intros Hs Hd. unfold digits in Hd. apply andb_true_iff in Hd as [Hn Hd]. apply negb_true_iff, bool_decide_eq_false in Hn.
  assert (H0 : parse_digits false 0 ds = fits (decimal ds)) by (apply (parse_digits_value false ds 0); [done|lia|lia]).
  assert (H1 : parse_digits true 0 ds = fits (- decimal ds)) by (apply (parse_digits_value true ds 0); [done|lia|lia]).
  unfold sign in Hs. rewrite !orb_true_iff, !bool_decide_eq_true in Hs. destruct Hs as [[->| ->]| ->]; unfold signed.
  - rewrite bool_decide_eq_false_2 by done. simpl app. rewrite <- H0. destruct ds as [|c l]; [done|]. unfold parse_i64. destruct l as [|c' l]; [done|].
    cbn [forallb] in Hd. apply andb_true_iff in Hd as [Hc _]. unfold digit in Hc. apply andb_true_iff in Hc as [Hc%N.leb_le _].
    rewrite (proj2 (N.eqb_neq c 43)), (proj2 (N.eqb_neq c 45)) by lia. done.
  - rewrite bool_decide_eq_false_2 by done. simpl. by destruct ds.
  - rewrite bool_decide_eq_true_2 by done. simpl. by destruct ds.
Qed.

(** ** Where the computed value is the mathematical one *)
Lemma value_meaning a v : small_exponents a -> value a = Some v -> meaning a = Some v.
Proof.
  revert v. induction a as [sg ds fr ex|o l IHl r IHr|a IH]; intros v Hs Hv; cbn [value meaning small_exponents] in *.
  - destruct fr, ex; try done. apply fits_ok in Hv as [-> _]. done.
  - destruct Hs as (H1 & H2 & H3). destruct (value l) as [x|]; [|done]. destruct (value r) as [y|]; [|done].
    rewrite (IHl x), (IHr y) by done. destruct o; cbn [operate true_result] in *; try (by apply fits_ok in Hv as [-> _]).
    + revert Hv. destruct (y =? 0); [done|]. intros [-> _]%fits_ok. done.
    + specialize (H3 eq_refl y eq_refl). rewrite Z.mod_small in Hv by done. apply fits_ok in Hv as [-> _].
      destruct (Z.ltb_spec y 0); [lia|done].
  - by apply IH.
Qed.
Lemma fits_in v : - 2 ^ 63 <= v < 2 ^ 63 -> fits v = Some v.
Proof. intros H. by apply fits_ok. Qed.
Lemma meaning_value a : parts_fit a -> value a = meaning a.
Proof.
  induction a as [sg ds fr ex|o l IHl r IHr|a IH]; intros H; cbn [value meaning parts_fit] in *.
  - destruct H as (v & Hv & Hr). cbn [meaning] in Hv. destruct fr, ex; try done. injection Hv as <-. by apply fits_in.
  - destruct H as (Hl & Hr & (v & Hv & Hi) & He). rewrite IHl, IHr by done. destruct (meaning l) as [x|] eqn:El; [|done]. destruct (meaning r) as [y|] eqn:Er; [|done].
    destruct o; cbn [true_result operate] in *; try (injection Hv as <-; by apply fits_in).
    + destruct (y =? 0); [done|]. injection Hv as <-. by apply fits_in.
    + specialize (He eq_refl y eq_refl). rewrite Z.mod_small by done. destruct (Z.ltb_spec y 0); [lia|]. injection Hv as <-. by apply fits_in.
  - by apply IH.
Qed.

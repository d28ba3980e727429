(** Theorem C31: example 11, a parser with a hand-written hook. *)
From Verif Require Import ProofBasics ProofFuel ProofTree ProofUtf8 SpecUtf8 SpecSafe SpecSession SpecProgram Programs TheoremsPackrat.

(** ** Specification: lines, and the longest run of pairwise different lines *)
Definition line_char (c : N) : Prop := 97 <= c <= 122 \/ c = 32.
Definition line (w : list N) : Prop := exists body, body <> [] /\ Forall line_char body /\ w = body ++ [10].
Definition fresh_lines (s : list N) (ws : list (list N)) (rest : list N) : Prop :=
  s = concat ws ++ rest /\ Forall line ws /\ NoDup ws /\ forall w r, rest = w ++ r -> line w -> w ∈ ws.
(** One node per line, from left to right. *)
Fixpoint line_nodes (i : N) (ws : list (list N)) : list ptree :=
  match ws with
  | [] => []
  | w :: ws => TNode ex11_R_Unique_line_matcher i (i + N.of_nat (length w)) true [] :: line_nodes (i + N.of_nat (length w)) ws
  end.

(** ** The hook, around any closure *)
Theorem C31_hook src (func : parser (list (list N))) parent pos st :
  unique_line_cache src func parent pos st =
  match func parent pos st with
  | Ok ((true, q), st') =>
      match get_string src pos q with
      | Ok (Some w) => if bool_decide (w ∈ st_user st') then Ok ((false, pos), st') else Ok ((true, q), PState (st_ctx st') (st_user st' ++ [w]))
      | Ok None => Panic PExplicit
      | Panic p => Panic p
      | NoFuel => NoFuel
      end
  | r => r
  end.
Proof.
  unfold unique_line_cache, mbind'. destruct (func parent pos st) as [[[[] q] st']| |]; simpl; try done.
Qed.

(** ** The text of a line, character by character *)
Definition line_charb (c : N) : bool := ((97 <=? c) && (c <=? 122)) || (c =? 32).
Lemma line_charb_spec c : line_charb c = true <-> line_char c.
Proof. unfold line_charb, line_char. rewrite orb_true_iff, andb_true_iff, !N.leb_le, N.eqb_eq. tauto. Qed.
Definition stops (rest : list N) : Prop := match rest with [] => True | c :: _ => ~ line_char c end.
Lemma split_line rest : exists body rest', rest = body ++ rest' /\ Forall line_char body /\ stops rest'.
Proof.
  induction rest as [|c rest (body & rest' & -> & Hb & Hs)]; [by exists [], []|].
  destruct (line_charb c) eqn:E.
  - exists (c :: body), rest'. split; [done|]. split; [|done]. constructor; [by apply line_charb_spec|done].
  - exists [], (c :: body ++ rest'). split; [done|]. split; [constructor|]. simpl. rewrite <- line_charb_spec. congruence.
Qed.
Lemma split_line_unique body rest body' rest' : Forall line_char body -> Forall line_char body' -> stops rest -> stops rest' ->
  body ++ rest = body' ++ rest' -> body = body' /\ rest = rest'.
Proof.
  revert body'. induction body as [|c body IH]; intros [|c' body'] H1 H2 S1 S2 E; simpl in E.
  - done.
  - subst rest. inversion H2. done.
  - subst rest'. inversion H1. done.
  - injection E as -> E. inversion H1; inversion H2; subst. destruct (IH body') as [-> ->]; done.
Qed.
Lemma newline_stops r : stops (10 :: r).
Proof. unfold stops, line_char. lia. Qed.
Lemma line_at body rest w r : Forall line_char body -> stops rest -> line w -> body ++ rest = w ++ r -> body <> [] /\ rest = 10 :: r /\ w = body ++ [10].
Proof.
  intros Hb Hs (b & Hne & Hb' & ->) E. rewrite <- app_assoc in E. simpl in E.
  apply split_line_unique in E as [-> ->]; try done. by apply newline_stops.
Qed.

Local Ltac step := unfold mret, mbind'; cbn [rbind fst snd negb]; cbv beta iota.
Section scan.
  Context (s : list N) (Hlen : N.of_nat (length s) < u32_modulus).
  Notation src := (source_new s).
  Notation len l := (N.of_nat (length l)).
  Lemma src_len_eq : src_len src = len s.
  Proof using Hlen. unfold source_new, as_u32. simpl. by apply N.mod_small. Qed.
  Lemma get_char_at pre c rest : s = pre ++ c :: rest -> get_char src (len pre) = Ok (Some c).
  Proof using Hlen.
    intros E. unfold get_char. rewrite src_len_eq. destruct (N.ltb_spec (len pre) (len s)) as [_|H]; [|rewrite E, app_length in H; simpl in H; lia].
    simpl. rewrite Nat2N.id, E, list_lookup_middle; done.
  Qed.
  Lemma get_char_end : get_char src (len s) = Ok None.
  Proof using Hlen. unfold get_char. rewrite src_len_eq. by rewrite N.ltb_irrefl. Qed.
  Lemma incr_at {S} pre c rest (st : pstate S) : s = pre ++ c :: rest -> incr (len pre) st = Ok (len (pre ++ [c]), st).
  Proof using Hlen.
    intros E. unfold incr. rewrite E, app_length in Hlen. simpl in Hlen. destruct (N.ltb_spec (len pre + 1) u32_modulus); [|lia].
    unfold mret. rewrite app_length. simpl. do 2 f_equal. lia.
  Qed.
  Notation ev := (eval ex11_program src).
  Notation charE := (ESub (EChoice (EInline ex11_f_alphabet_lower) (ETerminal 32))).
  Lemma char_yes n pre c rest key st : s = pre ++ c :: rest -> line_char c -> ev (4 + n) charE key (len pre) st = Ok ((true, len (pre ++ [c])), st).
  Proof using Hlen.
    intros E Hc. simpl eval. unfold subexpression_kernel, ordered_choice_kernel, ordered_choice_match_range_kernel, terminal_kernel, read_char, mbind'.
    rewrite (get_char_at _ _ _ E). cbn [rbind]. destruct ((97 <=? c) && (c <=? 122)) eqn:Er; cbn [rbind].
    - rewrite (incr_at _ _ _ st E). done.
    - step. destruct (N.eqb_spec c 32) as [->|Hne].
      + rewrite (incr_at _ _ _ st E). done.
      + destruct Hc as [Hc|Hc]; [|done]. apply andb_false_iff in Er as [Er|Er]; apply N.leb_gt in Er; lia.
  Qed.
  Lemma char_no n pre rest key st : s = pre ++ rest -> stops rest -> ev (4 + n) charE key (len pre) st = Ok ((false, len pre), st).
  Proof using Hlen.
    intros E Hc. simpl eval. unfold subexpression_kernel, ordered_choice_kernel, ordered_choice_match_range_kernel, terminal_kernel, read_char, mbind'.
    destruct rest as [|c rest].
    - rewrite app_nil_r in E. subst pre. rewrite get_char_end. done.
    - rewrite (get_char_at _ _ _ E). simpl in Hc. unfold line_char in Hc. cbn [rbind]. destruct ((97 <=? c) && (c <=? 122)) eqn:Er.
      + apply andb_true_iff in Er as [E1%N.leb_le E2%N.leb_le]. lia.
      + step. destruct (N.eqb_spec c 32) as [->|Hne]; [lia|done].
  Qed.
  Lemma chars_loop n key st : forall body pre rest fuel, s = pre ++ body ++ rest -> Forall line_char body -> stops rest -> (length body < fuel)%nat ->
    repeat_loop fuel (ev (4 + n) charE) key (len pre) st = Ok ((true, len (pre ++ body)), st).
  Proof using Hlen.
    induction body as [|c body IH]; intros pre rest [|fuel] E Hb Hs Hf; simpl in Hf; try lia; cbn [repeat_loop]; unfold mbind' at 1.
    - rewrite (char_no n pre rest key st E Hs). cbn [rbind negb]. by rewrite app_nil_r.
    - apply list.Forall_cons in Hb as [Hc Hb]. rewrite (char_yes n pre c (body ++ rest) key st) by done. cbn [rbind negb].
      rewrite (IH (pre ++ [c]) rest) by (try done; try lia; by rewrite <- app_assoc). by rewrite <- app_assoc.
  Qed.
  Notation innerE := (ESub (ESeq (EPlus charE) (ETerminal 10))).
  Lemma inner_eval n pre body rest key st : s = pre ++ body ++ rest -> Forall line_char body -> stops rest -> (length s < n)%nat ->
    ev (7 + n) innerE key (len pre) st =
    Ok (match body, rest with _ :: _, x :: _ => if x =? 10 then (true, len (pre ++ body ++ [10])) else (false, len pre) | _, _ => (false, len pre) end, st).
  Proof using Hlen.
    intros E Hb Hs Hn. change (ev (7 + n) innerE) with (subexpression_kernel (sequence_kernel (one_or_more_kernel (4 + n) (ev (4 + n) charE)) (terminal_kernel src 10))).
    unfold subexpression_kernel, sequence_kernel, one_or_more_kernel, mbind'.
    assert (Hl : (length body < 4 + n)%nat) by (rewrite E, !app_length in Hn; lia).
    destruct body as [|c body].
    - rewrite (char_no n pre rest key st E Hs). done.
    - apply list.Forall_cons in Hb as [Hc Hb]. rewrite (char_yes n pre c (body ++ rest) key st) by done. cbn [rbind negb].
      rewrite (chars_loop n key st body (pre ++ [c]) rest) by (try done; try (simpl in Hl; lia); by rewrite <- app_assoc). cbn [rbind].
      rewrite <- app_assoc. simpl app.
      unfold terminal_kernel, read_char, mbind'. destruct rest as [|x rest].
      + replace (pre ++ c :: body) with s by (rewrite E; by rewrite app_nil_r). rewrite get_char_end. done.
      + rewrite (get_char_at (pre ++ c :: body) x rest) by (by rewrite E, <- app_assoc). cbn [rbind].
        destruct (N.eqb_spec x 10) as [->|Hne].
        * rewrite (incr_at (pre ++ c :: body) 10 rest) by (by rewrite E, <- app_assoc). simpl. by rewrite <- !app_assoc.
        * done.
  Qed.
End scan.

Lemma eval_plus {U} (pr : program U) src n e : eval pr src (S n) (EPlus e) = one_or_more_kernel n (eval pr src n e).
Proof. done. Qed.
Lemma eval_var {U} (pr : program U) src n r f e : pr_fn pr f = Some e -> forall k p st, eval pr src (S n) (EVar r f) k p st = var_name_kernel r (eval pr src n e) k p st.
Proof.
  intros H k p st. simpl. unfold var_name_kernel, get_ctx, mbind'. cbn [rbind]. destruct (check _ _ _) as [[[]]|]; [done|].
  unfold default_behaviour. rewrite H. done.
Qed.
(** A memoised call of a closure that leaves the context alone. *)
Lemma quiet_call {U} (func : parser U) r c u u' b q pos n1 :
  check c r pos = None -> p_nodes (cx_pub c) !! 1 = Some n1 -> 2 <= p_len (cx_pub c) -> p_len (cx_pub c) < u32_modulus ->
  (forall c k, func k pos (PState c u) = Ok ((b, q), PState c u')) ->
  exists c', var_name_kernel r func 1 pos (PState c u) = Ok ((b, q), PState c' u') /\
    p_len (cx_pub c') = p_len (cx_pub c) + 1 /\
    p_nodes (cx_pub c') = <[1 := with_children n1 (n_children n1 ++ [p_len (cx_pub c)])]> (<[p_len (cx_pub c) := Node (p_len (cx_pub c)) r pos q b []]> (p_nodes (cx_pub c))) /\
    c_memo (cx_cache c') = <[(r, pos) := (b, q, p_len (cx_pub c))]> (c_memo (cx_cache c)).
Proof.
  intros Hck H1 H2 H3 Hf. unfold var_name_kernel, get_ctx, mbind'. cbn [rbind st_ctx]. rewrite Hck.
  unfold default_behaviour, with_ctx, upd_ctx, with_ctx, mbind', mret, reserve_publisher_entry, add_node.
  cbn [rbind st_ctx st_user]. destruct (N.ltb_spec (p_len (cx_pub c)) u32_modulus); [|lia]. cbn [rbind].
  rewrite Hf. cbn [rbind fst snd st_ctx]. 
  unfold update_publisher_entry, create_cache_entry, set_node_result, set_node_start_position, set_node_end_position, get_node.
  cbn [rbind cx_pub with_memo with_pub p_nodes p_len set_node n_index n_rule n_start n_end n_result n_children].
  repeat (rewrite lookup_insert; cbn [rbind p_nodes p_len set_node n_index n_rule n_start n_end n_result n_children]).
  unfold ctx_connect, connect, get_node. destruct (N.eqb_spec 1 (p_len (cx_pub c))); [lia|].
  cbn [rbind cx_pub with_memo with_pub p_nodes p_len set_node st_ctx st_user]. rewrite !lookup_insert_ne by lia. rewrite H1. cbn [rbind].
  eexists. split; [done|]. cbn. split; [done|]. split; [|done]. f_equal. by rewrite !insert_insert.
Qed.

(** ** The parser state after some lines *)
Section lines.
  Context (s : list N) (Hlen : N.of_nat (length s) + 3 < u32_modulus) (Hutf : utf8 s).
  Notation src := (source_new s).
  Notation len l := (N.of_nat (length l)).
  Notation ev := (eval ex11_program src).
  Notation lineE := (ESub (EVar ex11_R_Unique_line_matcher ex11_f_unique_line_matcher)).

  (** The children of the Grammar node (key 1) so far, and its fields. *)
  Record seen (ws : list (list N)) (F : list ptree) (st : pstate (list (list N))) : Prop := {
    se_user : st_user st = ws;
    se_len : p_len (cx_pub (st_ctx st)) = 2 + len F;
    se_root : p_nodes (cx_pub (st_ctx st)) !! 0 = Some (Node 0 ex11_R_Grammar 0 0 true []);
    se_node : exists ks, p_nodes (cx_pub (st_ctx st)) !! 1 = Some (Node 1 ex11_R_Grammar 0 0 false ks) /\
      unfolds_list (fun k => k <= 1) (cx_pub (st_ctx st)) ks F;
    se_wf : forall k, p_len (cx_pub (st_ctx st)) <= k -> p_nodes (cx_pub (st_ctx st)) !! k = None }.
  Definition unmemoised (i : N) (st : pstate (list (list N))) : Prop :=
    forall q, i <= q -> check (st_ctx st) ex11_R_Unique_line_matcher q = None.

  Lemma text_of pre w rest : s = pre ++ w ++ rest -> line w -> get_string src (len pre) (len (pre ++ w)) = Ok (Some w).
  Proof using Hlen Hutf.
    intros E (body & Hne & Hb & ->). unfold get_string. rewrite src_len_eq by lia.
    assert (Hl : len s = len pre + len (body ++ [10]) + len rest) by (rewrite E, !app_length; lia).
    rewrite app_length. destruct (N.ltb_spec (len s) (len pre)); [lia|]. destruct (N.ltb_spec (len s) (N.of_nat (length pre + length (body ++ [10])))); [lia|]. simpl orb. cbv iota.
    destruct body as [|c body]; [done|]. apply list.Forall_cons in Hb as [Hc Hb].
    assert (Hc128 : c < 128) by (unfold line_char in Hc; lia).
    unfold slice_str. simpl src_bytes.
    rewrite (boundary_at s (len pre) c); [|rewrite E, Nat2N.id; by apply list_lookup_middle|done].
    replace (N.of_nat (length pre + length ((c :: body) ++ [10]))) with (len (pre ++ c :: body) + 1) by (rewrite !app_length; simpl; lia).
    rewrite (boundary_after s (len (pre ++ c :: body)) 10); [|done| |done].
    2:{ rewrite E, Nat2N.id. rewrite <- !app_assoc. simpl. rewrite app_comm_cons, app_assoc. by apply list_lookup_middle. }
    replace (len pre <=? len (pre ++ c :: body) + 1) with true by (symmetry; apply N.leb_le; rewrite app_length; lia).
    replace (len (pre ++ c :: body) + 1 <=? len s) with true by (symmetry; apply N.leb_le; rewrite Hl, !app_length; simpl; lia).
    simpl andb. cbv iota. cbn [rmap rbind]. do 2 f_equal. rewrite Nat2N.id, E, drop_app.
    replace (N.to_nat (len (pre ++ c :: body) + 1 - len pre)) with (length ((c :: body) ++ [10])) by (rewrite !app_length; simpl; lia).
    by rewrite take_app.
  Qed.

  Lemma seen_call ws F st func pos b q ws' : seen ws F st -> unmemoised pos st -> len F <= len s ->
    (forall c k, func k pos (PState c ws) = Ok ((b, q), PState c ws')) ->
    exists st', var_name_kernel ex11_R_Unique_line_matcher func 1 pos st = Ok ((b, q), st') /\
      seen ws' (F ++ [TNode ex11_R_Unique_line_matcher pos q b []]) st' /\ unmemoised (pos + 1) st'.
  Proof using Hlen.
    intros [Su Sl Sr (ks & Sn & Sk) Sw] Hm HF Hf. destruct st as [c u]. simpl in *. subst u.
    destruct (quiet_call func ex11_R_Unique_line_matcher c ws ws' b q pos _ (Hm pos ltac:(lia)) Sn ltac:(lia) ltac:(lia) Hf) as (c' & E & El & En & Em).
    exists (PState c' ws'). split; [done|]. split.
    - split; simpl.
      + done.
      + rewrite El, Sl, app_length. simpl. lia.
      + rewrite En, !lookup_insert_ne by lia. done.
      + eexists. rewrite En, lookup_insert. split; [done|]. simpl. apply unfolds_list_app.
        * revert Sk. eapply (unfolds_frame (fun k => k <= 1) (fun k => k <= 1)). intros k n Hn Hk. split; [done|]. rewrite En.
          rewrite !lookup_insert_ne; [done| |lia]. intros <-. rewrite Sw in Hn; [done|lia].
        * constructor; [|constructor]. rewrite Sl.
          assert (Hk : p_nodes (cx_pub c') !! (2 + len F) = Some (Node (2 + len F) ex11_R_Unique_line_matcher pos q b [])).
          { rewrite En, Sl, lookup_insert_ne by lia. by rewrite lookup_insert. }
          refine (unf _ _ _ _ [] _ Hk _); [lia|constructor].
      + intros k Hk. rewrite El in Hk. rewrite En, !lookup_insert_ne by lia. apply Sw. lia.
    - intros x Hx. unfold check. simpl. rewrite Em, lookup_insert_ne; [apply Hm; lia|]. intros [=]. lia.
  Qed.

  (** One attempt to read a line. *)
  Lemma line_step ws F st n rest : seen ws F st -> unmemoised (len (concat ws)) st -> len F <= len s -> s = concat ws ++ rest -> (length s < n)%nat ->
    exists st',
    (exists w r, rest = w ++ r /\ line w /\ w ∉ ws /\
      ev (10 + n) lineE 1 (len (concat ws)) st = Ok ((true, len (concat (ws ++ [w]))), st') /\
      seen (ws ++ [w]) (F ++ [TNode ex11_R_Unique_line_matcher (len (concat ws)) (len (concat (ws ++ [w]))) true []]) st' /\ unmemoised (len (concat (ws ++ [w]))) st') \/
    ((forall w r, rest = w ++ r -> line w -> w ∈ ws) /\
      ev (10 + n) lineE 1 (len (concat ws)) st = Ok ((false, len (concat ws)), st') /\
      seen ws (F ++ [TNode ex11_R_Unique_line_matcher (len (concat ws)) (len (concat ws)) false []]) st').
  Proof using Hlen Hutf.
    intros HS HM HF E Hn. destruct (split_line rest) as (body & rest' & Er & Hb & Hst).
    assert (Hinner : forall c k, ev (7 + n) (ESub (ESeq (EPlus (ESub (EChoice (EInline ex11_f_alphabet_lower) (ETerminal 32)))) (ETerminal 10))) k (len (concat ws)) (PState c ws) =
      Ok (match body, rest' with _ :: _, x :: _ => if x =? 10 then (true, len (concat ws ++ body ++ [10])) else (false, len (concat ws)) | _, _ => (false, len (concat ws)) end, PState c ws)).
    { intros c k. apply inner_eval; [lia|by rewrite E, Er|done|done|done]. }
    set (func := fun (key position : N) => eval ex11_program src (8 + n) ex11_body_unique_line_matcher key position).
    assert (Hfunc : forall c k, func k (len (concat ws)) (PState c ws) = unique_line_cache src (ev (7 + n) (ESub (ESeq (EPlus (ESub (EChoice (EInline ex11_f_alphabet_lower) (ETerminal 32)))) (ETerminal 10)))) k (len (concat ws)) (PState c ws)) by done.
    assert (Hev : ev (10 + n) lineE = subexpression_kernel (var_name_kernel ex11_R_Unique_line_matcher func)) by done.
    assert (Hcases : (exists w r, rest = w ++ r /\ line w /\ (forall c k, ev (7 + n) (ESub (ESeq (EPlus (ESub (EChoice (EInline ex11_f_alphabet_lower) (ETerminal 32)))) (ETerminal 10))) k (len (concat ws)) (PState c ws) = Ok ((true, len (concat ws ++ w)), PState c ws))
        /\ forall w' r', rest = w' ++ r' -> line w' -> w' = w) \/
      ((forall w r, rest = w ++ r -> ~ line w) /\ forall c k, ev (7 + n) (ESub (ESeq (EPlus (ESub (EChoice (EInline ex11_f_alphabet_lower) (ETerminal 32)))) (ETerminal 10))) k (len (concat ws)) (PState c ws) = Ok ((false, len (concat ws)), PState c ws))).
    { clear Hfunc Hev func HS HM. destruct body as [|c0 body].
      { right. split; [|exact Hinner]. intros w r Ew Hw. rewrite Ew in Er. symmetry in Er. destruct (line_at _ _ _ _ Hb Hst Hw Er). done. }
      destruct rest' as [|x rest'].
      { right. split; [|exact Hinner]. intros w r Ew Hw. rewrite Ew in Er. symmetry in Er. destruct (line_at _ _ _ _ Hb Hst Hw Er) as (_ & ? & _). done. }
      destruct (N.eqb_spec x 10) as [->|Hx].
      - left. exists ((c0 :: body) ++ [10]), rest'. split; [by rewrite Er, <- app_assoc|]. split; [by exists (c0 :: body)|]. split; [exact Hinner|].
        intros w' r' Ew Hw. rewrite Ew in Er. symmetry in Er. destruct (line_at _ _ _ _ Hb Hst Hw Er) as (_ & _ & ->). done.
      - right. split; [|exact Hinner]. intros w r Ew Hw. rewrite Ew in Er. symmetry in Er. destruct (line_at _ _ _ _ Hb Hst Hw Er) as (_ & [= ? ?] & _). done. }
    clear Hinner. rewrite Hev. unfold subexpression_kernel, mbind'.
    destruct Hcases as [(w & r & Ew & Hw & Hin & Huniq)|[Hno Hin]].
    - assert (Htext : get_string src (len (concat ws)) (len (concat ws ++ w)) = Ok (Some w)) by (apply text_of with r; [by rewrite E, Ew|done]).
      destruct (decide (w ∈ ws)) as [Hmem|Hmem].
      + destruct (seen_call ws F st func (len (concat ws)) false (len (concat ws)) ws HS HM HF) as (st' & Ec & Hs' & _).
        { intros c k. rewrite Hfunc, C31_hook, Hin, Htext. simpl st_user. by rewrite bool_decide_eq_true_2. }
        exists st'. right. split; [|split; [|done]].
        * intros w' r' Ew' Hw'. by rewrite (Huniq w' r' Ew' Hw').
        * rewrite Ec. done.
      + destruct (seen_call ws F st func (len (concat ws)) true (len (concat ws ++ w)) (ws ++ [w]) HS HM HF) as (st' & Ec & Hs' & Hm').
        { intros c k. rewrite Hfunc, C31_hook, Hin, Htext. simpl st_user. by rewrite bool_decide_eq_false_2. }
        assert (Econ : concat (ws ++ [w]) = concat ws ++ w) by (rewrite concat_app; simpl; by rewrite app_nil_r).
        exists st'. left. exists w, r. rewrite Econ. split; [done|]. split; [done|]. split; [done|]. split; [by rewrite Ec|]. split; [done|].
        intros q Hq. apply Hm'. rewrite app_length in Hq. destruct Hw as (b0 & Hb0 & _ & ->). rewrite app_length in Hq. simpl in Hq. lia.
    - destruct (seen_call ws F st func (len (concat ws)) false (len (concat ws)) ws HS HM HF) as (st' & Ec & Hs' & _).
      { intros c k. rewrite Hfunc, C31_hook, Hin. done. }
      exists st'. right. split; [|split; [by rewrite Ec|done]]. intros w r Ew Hw. by apply Hno in Ew.
  Qed.

  Lemma line_nodes_app i ws w : line_nodes i (ws ++ [w]) = line_nodes i ws ++ [TNode ex11_R_Unique_line_matcher (i + len (concat ws)) (i + len (concat (ws ++ [w]))) true []].
  Proof using.
    revert i. induction ws as [|v ws IH]; intros i; simpl.
    - by rewrite app_nil_r, N.add_0_r.
    - rewrite IH, !app_length, !Nat2N.inj_add, !N.add_assoc. done.
  Qed.
  Lemma lines_short ws : Forall line ws -> (length ws <= length (concat ws))%nat.
  Proof using.
    clear Hlen Hutf. induction 1 as [|w ws (b & Hb & _ & ->) _ IH]; simpl; [lia|]. rewrite !app_length. simpl. lia.
  Qed.
  Lemma line_nodes_length i ws : length (line_nodes i ws) = length ws.
  Proof using. revert i. induction ws; intros; simpl; [done|]. by f_equal. Qed.

  Lemma lines_loop n : (length s < n)%nat -> forall fuel ws rest st, seen ws (line_nodes 0 ws) st -> unmemoised (len (concat ws)) st -> s = concat ws ++ rest ->
    Forall line ws -> NoDup ws -> (length rest < fuel)%nat ->
    exists ws' rest' st', repeat_loop fuel (ev (10 + n) lineE) 1 (len (concat ws)) st = Ok ((true, len (concat ws')), st') /\ fresh_lines s ws' rest' /\
      (ws <> [] -> ws' <> []) /\ seen ws' (line_nodes 0 ws' ++ [TNode ex11_R_Unique_line_matcher (len (concat ws')) (len (concat ws')) false []]) st'.
  Proof using Hlen Hutf.
    intros Hn. induction fuel as [|fuel IH]; intros ws rest st HS HM E HL HD Hf; [lia|]. cbn [repeat_loop]. unfold mbind'.
    assert (HF : len (line_nodes 0 ws) <= len s).
    { rewrite line_nodes_length. pose proof (lines_short _ HL). rewrite E, app_length. lia. }
    destruct (line_step ws _ st n rest HS HM HF E Hn) as (st' & [(w & r & Er & Hw & Hni & Ee & HS' & HM')|(Hno & Ee & HS')]).
    - rewrite Ee. cbn [rbind negb].
      destruct (IH (ws ++ [w]) r st') as (ws' & rest' & st2 & E2 & H2 & H3 & H4); try done.
      + by rewrite line_nodes_app.
      + rewrite E, Er, concat_app. simpl. by rewrite app_nil_r, app_assoc.
      + apply Forall_app. split; [done|]. by constructor.
      + apply NoDup_app. split; [done|]. split; [|apply NoDup_singleton]. intros x Hx ->%elem_of_list_singleton. done.
      + rewrite Er, app_length in Hf. destruct Hw as (b & Hb & _ & ->). rewrite app_length in Hf. simpl in Hf. lia.
      + exists ws', rest', st2. split; [exact E2|]. split; [done|]. split; [|done]. intros _. apply H3. by destruct ws.
    - rewrite Ee. cbn [rbind negb]. exists ws, rest, st'. split; [done|]. done.
  Qed.

  Lemma lines_first n st : (length s < n)%nat -> seen [] [] st -> unmemoised 0 st ->
    exists ws rest st', ev (11 + n) ex11_body_grammar 1 0 st = Ok ((bool_decide (ws <> []), len (concat ws)), st') /\ fresh_lines s ws rest /\
      seen ws (line_nodes 0 ws ++ [TNode ex11_R_Unique_line_matcher (len (concat ws)) (len (concat ws)) false []]) st'.
  Proof using Hlen Hutf.
    intros Hn HS HM. change (11 + n)%nat with (S (10 + n)). unfold ex11_body_grammar. rewrite eval_plus. unfold one_or_more_kernel, mbind'.
    destruct (line_step [] [] st n s HS HM ltac:(simpl; lia) eq_refl Hn) as (st' & [(w & r & Er & Hw & Hni & Ee & HS' & HM')|(Hno & Ee & HS')]).
    - cbn [concat app length N.of_nat] in Ee. rewrite Ee. cbn [rbind negb].
      change (len (concat ([] ++ [w]))) with (len (concat [w])). destruct (lines_loop n Hn (10 + n) [w] r st') as (ws' & rest' & st2 & E2 & H2 & H3 & H4); try done.
      + cbn [app concat] in HS'. rewrite app_nil_r in HS'. exact HS'.
      + rewrite Er. cbn [concat]. by rewrite app_nil_r.
      + by constructor.
      + apply NoDup_singleton.
      + rewrite Er, app_length in Hn. lia.
      + exists ws', rest', st2. rewrite bool_decide_eq_true_2 by (by apply H3). done.
    - change (len (concat [])) with 0 in Ee. rewrite Ee. cbn [rbind negb]. exists [], s, st'. split; [done|]. split; [|done]. split; [done|]. split; [constructor|]. split; [constructor|done].
  Qed.
End lines.

(** The call of the start rule around any closure that fills node 1. *)
Definition first_context : context :=
  Context cache_new (Publisher (<[1 := Node 1 ex11_R_Grammar 0 0 false []]> {[0 := Node 0 ex11_R_Grammar 0 0 true []]}) 2).
Lemma root_call (func : parser (list (list N))) u0 b q c2 ws ks F :
  func 1 0 (PState first_context u0) = Ok ((b, q), PState c2 ws) ->
  p_nodes (cx_pub c2) !! 0 = Some (Node 0 ex11_R_Grammar 0 0 true []) -> p_nodes (cx_pub c2) !! 1 = Some (Node 1 ex11_R_Grammar 0 0 false ks) ->
  unfolds_list (fun k => k <= 1) (cx_pub c2) ks F ->
  exists st, var_name_kernel ex11_R_Grammar func 0 0 (PState (context_new ex11_R_Grammar) u0) = Ok ((b, q), st) /\ st_user st = ws /\
    denotes (cx_pub (st_ctx st)) (TNode ex11_R_Grammar 0 0 true [TNode ex11_R_Grammar 0 q b F]).
Proof.
  intros Ee Sr Sn Sk.
  assert (Hck : check (context_new ex11_R_Grammar) ex11_R_Grammar 0 = None) by done.
  assert (Hrs : reserve_publisher_entry (context_new ex11_R_Grammar) ex11_R_Grammar = Ok (1, first_context)) by done.
  unfold var_name_kernel, get_ctx, mbind'. cbn [rbind st_ctx]. rewrite Hck.
  unfold default_behaviour, with_ctx, upd_ctx, with_ctx, mbind', mret. cbn [st_ctx]. rewrite Hrs. cbn [rbind st_user].
    rewrite Ee. cbn [rbind fst snd st_ctx st_user].
    unfold update_publisher_entry, create_cache_entry, set_node_result, set_node_start_position, set_node_end_position, get_node.
    cbn [rbind cx_pub with_memo with_pub p_nodes p_len set_node n_index n_rule n_start n_end n_result n_children]. rewrite Sn.
    cbn [rbind cx_pub with_memo with_pub p_nodes p_len set_node n_index n_rule n_start n_end n_result n_children].
    repeat (rewrite lookup_insert; cbn [rbind p_nodes p_len set_node n_index n_rule n_start n_end n_result n_children]).
    unfold ctx_connect, connect, get_node. change (0 =? 1) with false.
    cbn [rbind cx_pub with_memo with_pub p_nodes p_len set_node st_ctx st_user]. rewrite !lookup_insert_ne by lia. rewrite Sr. cbn [rbind].
    eexists. split; [reflexivity|]. cbn [st_user st_ctx cx_pub p_nodes with_pub]. split; [done|].
    match goal with |- denotes ?p _ => set (p' := p) end.
    assert (H0 : p_nodes p' !! 0 = Some (Node 0 ex11_R_Grammar 0 0 true [1])) by (unfold p'; simpl; by rewrite lookup_insert).
    assert (H1 : p_nodes p' !! 1 = Some (Node 1 ex11_R_Grammar 0 q b ks)) by (unfold p'; simpl; rewrite lookup_insert_ne by lia; by rewrite lookup_insert).
    refine (unf nothing p' 0 _ [_] _ H0 _); [by intros []|]. constructor; [|constructor].
    refine (unf nothing p' 1 _ F _ H1 _); [by intros []|]. revert Sk. simpl n_children.
    eapply (unfolds_frame (fun k => k <= 1) nothing). intros k nd Hk Hok. split; [by intros []|]. unfold p'. simpl. by rewrite !lookup_insert_ne by lia.
Qed.
(** ** The whole parser *)
(** On every valid text the parser ends where the longest run of pairwise
    different lines ends; it succeeds iff there is at least one line; the user
    state holds these lines. *)
Theorem C31_fresh_lines s : utf8 s -> N.of_nat (length s) + 3 < u32_modulus ->
  exists ws rest st fuel0, fresh_lines s ws rest /\ st_user st = ws /\
    (forall fuel, (fuel0 <= fuel)%nat -> run_entry ex11_program [] fuel ex11_entry s = Ok ((bool_decide (ws <> []), N.of_nat (length (concat ws))), st)) /\
    denotes (cx_pub (st_ctx st)) (TNode ex11_R_Grammar 0 0 true [TNode ex11_R_Grammar 0 (N.of_nat (length (concat ws))) (bool_decide (ws <> []))
      (line_nodes 0 ws ++ [TNode ex11_R_Unique_line_matcher (N.of_nat (length (concat ws))) (N.of_nat (length (concat ws))) false []])]).
Proof.
  intros Hu Hlen. set (n := S (length s)).
  assert (HS0 : seen [] [] (PState first_context [])).
  { split; simpl.
    - done.
    - done.
    - by rewrite lookup_insert_ne, lookup_singleton.
    - exists []. rewrite lookup_insert. split; [done|constructor].
    - intros k Hk. rewrite lookup_insert_ne, lookup_singleton_ne by lia. done. }
  destruct (lines_first s Hlen Hu n (PState first_context []) ltac:(lia) HS0) as (ws & rest & [c2 u2] & Ee & Hfl & HS); [done|].
  destruct HS as [Su Sl Sr (ks & Sn & Sk) Sw]. simpl in Su. subst u2. simpl st_ctx in *.
  set (b := bool_decide (ws <> [])) in *. set (q := N.of_nat (length (concat ws))) in *.
  set (F := line_nodes 0 ws ++ [TNode ex11_R_Unique_line_matcher q q false []]) in *.
  destruct (root_call _ _ _ _ _ _ _ _ Ee Sr Sn Sk) as (st & Er & Hst & Hd).
  assert (Hrun : run_entry ex11_program [] (S (11 + n)) ex11_entry s = Ok ((b, q), st)).
  { unfold run_entry, ex11_entry. rewrite (eval_var ex11_program _ _ _ ex11_f_grammar ex11_body_grammar eq_refl). exact Er. }
  exists ws, rest, st, (S (11 + n)). split; [done|]. split; [done|]. split; [|exact Hd].
  intros fuel Hf. unfold run_entry in *. eapply eval_mono_Ok; [|exact Hrun|exact Hf].
  intros h sr f g Hfg k p st0. simpl. destruct (h =? _); [|by apply Hfg]. unfold unique_line_cache. intros Hne. unfold mbind' in *.
  assert (Eg : g k p st0 = f k p st0) by (apply Hfg; intros Ef; rewrite Ef in Hne; by apply Hne). by rewrite Eg.
Qed.
(** The lines are determined by the text. *)
Theorem C31_unique s ws rest ws' rest' : fresh_lines s ws rest -> fresh_lines s ws' rest' -> ws = ws' /\ rest = rest'.
Proof.
  intros (E & HL & HD & HM) (E' & HL' & HD' & HM').
  assert (H : forall pre ws ws', Forall line ws -> Forall line ws' -> NoDup (pre ++ ws) -> NoDup (pre ++ ws') ->
    (forall w r, rest = w ++ r -> line w -> w ∈ pre ++ ws) -> (forall w r, rest' = w ++ r -> line w -> w ∈ pre ++ ws') ->
    concat ws ++ rest = concat ws' ++ rest' -> ws = ws').
  { clear. intros pre ws. revert pre. induction ws as [|w ws IH]; intros pre [|w' ws'] HL HL' HD HD' HM HM' E.
    - done.
    - simpl in E. apply list.Forall_cons in HL' as [Hw' _]. exfalso. rewrite app_nil_r in HM. rewrite <- app_assoc in E.
      specialize (HM w' (concat ws' ++ rest') E Hw'). apply NoDup_app in HD' as (_ & HD' & _). by apply (HD' w'); [|left].
    - simpl in E. apply list.Forall_cons in HL as [Hw _]. exfalso. rewrite app_nil_r in HM'. rewrite <- app_assoc in E. symmetry in E.
      specialize (HM' w (concat ws ++ rest) E Hw). apply NoDup_app in HD as (_ & HD & _). by apply (HD w); [|left].
    - simpl in E. apply list.Forall_cons in HL as [Hw HL]. apply list.Forall_cons in HL' as [Hw' HL']. rewrite <- !app_assoc in E.
      assert (Eb : w = w' /\ concat ws ++ rest = concat ws' ++ rest').
      { destruct Hw as (b & Hb & Hbc & ->), Hw' as (b' & Hb' & Hbc' & ->). rewrite <- !app_assoc in E.
        apply split_line_unique in E as [-> E]; try done; try by apply newline_stops. simpl in E. injection E as E. done. }
      destruct Eb as [-> Eb]. f_equal. apply (IH (pre ++ [w'])); try done; by rewrite <- app_assoc. }
  assert (ws = ws') as <- by (apply (H [] ws ws'); try done; by rewrite <- E, <- E').
  split; [done|]. rewrite E in E'. by apply app_inv_head in E'.
Qed.
Local Lemma prune_app F G : prune_forest (F ++ G) = prune_forest F ++ prune_forest G.
Proof. induction F as [|t F IH]; [done|]. simpl. destruct (keep t); [simpl; by rewrite IH|done]. Qed.
(** What parse returns: success flag, end position, one node per line. *)
Lemma prune_lines i ws : Forall line ws -> prune_forest (line_nodes i ws) = line_nodes i ws.
Proof.
  intros H. revert i. induction H as [|w ws (b & Hb & _ & ->) _ IH]; intros i; [done|]. cbn [line_nodes prune_forest].
  assert (Hk : keep (TNode ex11_R_Unique_line_matcher i (i + N.of_nat (length (b ++ [10]))) true []) = true).
  { unfold keep. simpl. apply negb_true_iff, N.eqb_neq. rewrite app_length. simpl. lia. }
  rewrite Hk, IH. done.
Qed.
Lemma fsize_lines i ws : fsize (line_nodes i ws) = N.of_nat (length ws).
Proof. revert i. induction ws as [|w ws IH]; intros i; [done|]. cbn [line_nodes fsize]. rewrite IH. simpl length. simpl tsize. lia. Qed.
Theorem C31_parse s : utf8 s -> N.of_nat (length s) + 3 < u32_modulus ->
  exists ws rest t fuel0, fresh_lines s ws rest /\
    (forall fuel, (fuel0 <= fuel)%nat -> parse_with ex11_program [] fuel ex11_entry s = Ok (bool_decide (ws <> []), N.of_nat (length (concat ws)), t)) /\
    denotes t (TNode ex11_R_Grammar 0 0 true
      (match ws with [] => [] | _ => [TNode ex11_R_Grammar 0 (N.of_nat (length (concat ws))) true (line_nodes 0 ws)] end)).
Proof.
  intros Hu Hlen. destruct (C31_fresh_lines s Hu Hlen) as (ws & rest & st & f0 & Hfl & Hst & Hrun & Hd).
  set (q := N.of_nat (length (concat ws))) in *. set (F := [TNode ex11_R_Grammar 0 q _ _]) in Hd.
  assert (HL : Forall line ws) by apply Hfl.
  assert (HF : prune_forest F = match ws with [] => [] | _ => [TNode ex11_R_Grammar 0 q true (line_nodes 0 ws)] end).
  { unfold F. destruct ws as [|w ws]; [done|]. rewrite bool_decide_eq_true_2 by done. cbn [prune_forest].
    assert (Hk : keep (TNode ex11_R_Grammar 0 q true (line_nodes 0 (w :: ws) ++ [TNode ex11_R_Unique_line_matcher q q false []])) = true).
    { unfold keep. cbn [t_ok t_start t_end andb]. apply negb_true_iff, N.eqb_neq. unfold q. apply list.Forall_cons in HL as [(b & Hb & _ & ->) _].
      simpl. rewrite !app_length. simpl. lia. }
    rewrite Hk, prune_eq, prune_app, (prune_lines _ _ HL). simpl. by rewrite app_nil_r. }
  assert (Hws : (length ws <= length s)%nat).
  { pose proof (lines_short ws HL). destruct Hfl as (-> & _). rewrite app_length. lia. }
  assert (Hsz : 2 + fsize (prune_forest F) <= u32_modulus).
  { rewrite HF. destruct ws as [|w ws]; [simpl; unfold u32_modulus; lia|]. cbn [fsize]. rewrite tsize_eq, fsize_lines. lia. }
  destruct (C17_clear_false_prunes _ ex11_R_Grammar _ _ _ _ Hd Hsz) as (f1 & t & Hc & Ht).
  exists ws, rest, t, (f0 `max` f1)%nat. split; [done|]. split; [|rewrite HF in Ht; exact Ht].
  intros fuel Hf. unfold parse_with. rewrite Hrun by lia. cbn [rbind]. change (pr_grammar ex11_program) with ex11_R_Grammar. rewrite Hc by lia. done.
Qed.
(** The safety theorems about programs with hooks (C16, C26) apply: the hook is
    well behaved, its only own panic is slicing off a character boundary. *)
Theorem C31_hook_behaves s D : N.of_nat (length s) < u32_modulus ->
  hooks_behave (N.of_nat (length s)) D (fun p => p = PKeyOverflow \/ p = PStrSlice) ex11_program (source_new s).
Proof.
  intros Hlen h Q f Hf O st parent pos HU HO Hp. specialize (Hf O st parent pos HU HO Hp). simpl. destruct (h =? _); [|done].
  rewrite C31_hook. destruct (f parent pos st) as [[[[] q] st']| |]; [|done..]. destruct Hf as (H1 & H2 & H3 & H4).
  destruct (H2 eq_refl) as [HQ Hq]. unfold get_string. rewrite src_len_eq by done.
  destruct (N.ltb_spec (N.of_nat (length s)) pos); [lia|]. destruct (N.ltb_spec (N.of_nat (length s)) q); [lia|]. simpl orb. cbv iota.
  unfold slice_str. destruct (_ && _); [|by right]. cbn [rmap rbind]. case_bool_decide.
  - done.
  - split; [done|]. split; [done|]. destruct st' as [c' u']. split; [destruct H3; by split|destruct H4; by split].
Qed.
(** A text with a repeated line: the third line is not accepted. *)
Lemma line_chars_check b : forallb line_charb b = true -> Forall line_char b.
Proof. intros H. apply list.Forall_forall. intros c Hc. apply line_charb_spec. rewrite forallb_forall in H. apply H. by apply elem_of_list_In. Qed.
Example C31_example : fresh_lines (bytes "ab
c
ab
d
") [bytes "ab
"; bytes "c
"] (bytes "ab
d
").
Proof.
  split; [done|]. split; [|split].
  - constructor; [exists (bytes "ab")|constructor; [exists (bytes "c")|constructor]]; (split; [done|]); (split; [by apply line_chars_check|done]).
  - apply (bool_decide_unpack _). by vm_compute.
  - intros w r E Hw. change (bytes "ab
d
") with (bytes "ab" ++ bytes "
d
") in E. destruct (line_at _ _ w r (line_chars_check (bytes "ab") eq_refl) (newline_stops _) Hw E) as (_ & _ & ->). by left.
Qed.

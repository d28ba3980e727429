(** Computing the bookkeeping of a stratified program ([SpecLR.strat]) for a
    table, given its left-recursive rules and their involved sets. *)
From Verif Require Import SpecLR SpecTerm Programs Checks.

Section strat_of.
  Context (table : list expr) (entry : list (N * N)) (groups : list (N * list N)).

  Definition so_fn : N -> N := fn_of table entry.
  Definition so_lr (f : N) : option N :=
    match List.find (fun g => so_fn (fst g) =? f) groups with Some (r, _) => Some r | None => None end.
  Definition so_group (r : N) : list N :=
    match List.find (fun g => fst g =? r) groups with Some (_, G) => G | None => [] end.
  Definition so_sat (b : N) : option N :=
    match List.find (fun g => bool_decide (b ∈ snd g) && negb (fst g =? b)) groups with Some (r, _) => Some r | None => None end.
  Definition so_nul : N -> bool := nul_of table.

  (** Functions called before anything is consumed, not counting calls inside
      the group [G]. *)
  Fixpoint first_calls_lr (G : list N) (e : expr) : list N :=
    match e with
    | ETerminal _ | EString _ | ERange _ _ => []
    | ELR _ r f => if bool_decide (r ∈ G) then [] else [f]
    | ESeq l r => first_calls_lr G l ++ (if nullable so_nul (pexp_of l) then first_calls_lr G r else [])
    | EChoice l r => first_calls_lr G l ++ first_calls_lr G r
    | EAnd e | ENot e | EOpt e | ESub e | EHook _ e | EPlus e | EStar e => first_calls_lr G e
    | EVar _ f | EInline f => [f]
    end.
  Definition group_of_fn (f : N) : list N :=
    match List.find (fun g => bool_decide (f ∈ map so_fn (snd g))) groups with Some (_, G) => G | None => [] end.
  Definition so_levels : list nat :=
    iter (length table) (fun lv => imap (fun f e =>
      let G := group_of_fn (N.of_nat f) in
      let own := S (foldr max 0%nat (map (of_list 0%nat lv) (first_calls_lr G e))) in
      (* members of a group share a level *)
      foldr max own (map (fun b => of_list 0%nat lv (so_fn b)) G)) table) (map (fun _ => 0%nat) table).

  Fixpoint avoids (av : N -> bool) (Ga : list N) (e : expr) : bool :=
    match e with
    | ETerminal _ | EString _ | ERange _ _ => true
    | ELR _ r _ => negb (bool_decide (r ∈ Ga))
    | ESeq l r | EChoice l r => avoids av Ga l && avoids av Ga r
    | EAnd e | ENot e | EOpt e | ESub e | EPlus e | EStar e => avoids av Ga e
    | EHook _ _ => false
    | EVar _ f | EInline f => av f
    end.
  Definition so_av_list (Ga : list N) : list bool :=
    iter (length table) (fun av => map (avoids (of_list false av) Ga) table) (map (fun _ => true) table).
  Definition so_avs : list (N * list bool) := map (fun g => (fst g, so_av_list (snd g))) groups.
  Definition lookup_av (avs : list (N * list bool)) (f a : N) : bool :=
    match List.find (fun g => fst g =? a) avs with Some (_, l) => of_list false l f | None => false end.

  Definition strat_of : strat :=
    Strat so_fn so_lr so_group so_sat (of_list 0%nat so_levels) (lookup_av so_avs) so_nul.

  Lemma lookup_av_in avs f a : lookup_av avs f a = true -> a ∈ map fst avs.
  Proof.
    unfold lookup_av. destruct (List.find _ avs) as [[a' l]|] eqn:E; [|done]. intros _.
    apply find_some in E as [E1 E2]. simpl in E2. apply N.eqb_eq in E2 as ->.
    apply elem_of_list_fmap. exists (a, l). split; [done|]. by apply elem_of_list_In.
  Qed.

  Lemma strat_of_ok {U} gr :
    forallb (fun x => strat_checkb (U:=U) table gr strat_of (map fst groups) (N.of_nat (fst x)) (snd x)) (imap pair table) = true ->
    stratified (table_program (U:=U) table gr) strat_of.
  Proof.
    intros H. eapply check_strat; [|exact H]. intros f a Ha. simpl in Ha. apply lookup_av_in in Ha.
    unfold so_avs in Ha. by rewrite map_map in Ha.
  Qed.
End strat_of.

(* The logs of the stages of driver.sh. *)
From Coq Require Import Ascii String List ZArith Bool Arith Lia Permutation.
From Verif Require Import Base BaseFacts Quat ModelSequence ModelWilliamson ModelEquivalence ModelMatrices ModelGraph ModelRowsum ModelFourier ModelMatching ModelWrite TextFacts
  FolderFacts ModelMain MainThms ModelLog LogFolder LogText LogFacts SpecSearch SpecLog SpecMain Spec.
Import ListNotations.
Open Scope nat_scope.
Notation length := List.length.
#[local] Opaque usize_to_string isize_to_string seconds.

Lemma reading_time a z : (0 <= z)%Z -> In a ["Total time to sort"; "Matching took"]%string ->
  reading [lit a ++ lit ": " ++ seconds z ++ lit " seconds."] = mkReading None None None [seconds z] None None.
Proof.
  intros H Ha. line_tac.
  change (lit a ++ lit ": " ++ seconds z ++ lit " seconds.") with (lit a ++ lit ": " ++ seconds z ++ lit " seconds" ++ lit ".").
  rewrite runtime_line by (auto; destruct Ha as [<-|[<-|[]]]; vm_compute; intuition discriminate).
  unfold m_wts, m_qts, m_red, m_hm, m_pairs. rewrite !number_none, !took_none by (unfold p_red, p_hm; destruct Ha as [<-|[<-|[]]]; hush_tac). reflexivity.
Qed.
Lemma sort_log_reading ck p t y f : clock_ok ck -> plain y -> Forall (shaped p) f ->
  reading (sort_log ck (type_word t) y f) = mkReading None None None [seconds (tm_sort ck)] None None.
Proof.
  intros Hc Hy F. unfold sort_log. rewrite reading_app.
  assert (Q : Forall quiet (concat (map (fun '(name, d) => map (fun e : text * Lines =>
      lit "Sorting file results/pairs/" ++ type_word t ++ lit "/find_" ++ y ++ lit "/" ++ name ++ lit "/" ++ fst e ++ lit " ...")
    (filter (fun e => ends_with (fst e) (lit ".pair")) d)) f))).
  { apply Forall_forall. intros s Hs. apply in_concat in Hs as (l & Hl & Hs). apply in_map_iff in Hl as ([nm d] & <- & Hd).
    rewrite Forall_forall in F. destruct (F _ Hd) as (rs & W & FL & FR & [= -> ->]).
    destruct (rowsum_dir_plain rs) as (k & Ek & Hk). apply in_map_iff in Hs as ([fn ls] & <- & Hf). cbn [fst]. rewrite Ek.
    assert (Hf' : In fn (map fst (filter (fun e : text * Lines => ends_with (fst e) (lit ".pair")) (dir_of p W FL FR)))) by (apply in_map_iff; now exists (fn, ls)).
    assert (E : map fst (filter (fun e : text * Lines => ends_with (fst e) (lit ".pair")) (dir_of p W FL FR)) =
      match p with Some WX => [lit "pair_WX.pair"; lit "pair_YZ.pair"] | Some WY => [lit "pair_WY.pair"; lit "pair_XZ.pair"] | _ => [lit "pair_WZ.pair"; lit "pair_XY.pair"] end)
      by (destruct p as [[| |]|]; reflexivity).
    rewrite E in Hf'. assert (T : type_word t = lit (match t with QuaternionType => "qts" | WilliamsonType => "wts" | Williamson => "ws" | ItoType => "its" | ExtraTypeI => "et1" | ExtraTypeII => "et2" | ExtraTypeIII => "et3" end)) by (destruct t; reflexivity).
    rewrite T. destruct p as [[| |]|]; destruct Hf' as [<-|[<-|[]]]; destruct t; quiet_tac. }
  rewrite (reading_quiet _ Q), then_nothing.
  change (_ :: [] :: []) with ([lit "Total time to sort" ++ lit ": " ++ seconds (tm_sort ck) ++ lit " seconds."] ++ [[]]).
  rewrite reading_app, reading_time; [|apply Hc|now left].
  rewrite (reading_quiet [[]]) by (constructor; [apply quiet_nil|constructor]). reflexivity.
Qed.

(* ---- join ---- *)

Lemma matches_some t order sq : forall fuel a b r res k, run fuel (join_step t order sq) (a, b, r) = Some res -> exists k', run fuel matches_step (a, b, k) = Some k'.
Proof.
  unfold run. induction fuel as [|fuel IH]; intros a b r res k E; [discriminate|]. cbn [loop] in E |- *.
  destruct (join_step t order sq (a, b, r)) as [st|] eqn:E1; [|discriminate]. unfold join_step in E1. unfold matches_step at 1.
  destruct a as [|a0 a]; [eauto|]. destruct b as [|b0 b]; [eauto|].
  apply bind_some in E1 as ([s12 i12] & -> & E1). cbn [bind]. apply bind_some in E1 as ([s34 i34] & -> & E1). cbn [bind].
  destruct (text_eqb s12 s34).
  - apply bind_some in E1 as ([m12 r12] & -> & E1). cbn [bind]. apply bind_some in E1 as ([m34 r34] & -> & E1). cbn [bind].
    apply bind_some in E1 as (r' & _ & E1). injection E1 as <-. eapply IH. exact E.
  - destruct (text_ltb s12 s34); injection E1 as <-; eapply IH; exact E.
Qed.

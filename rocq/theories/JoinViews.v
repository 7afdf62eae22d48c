From Verif Require Import Base ModelUri ModelJoin SpecJoinViews SpecPlaces SpanSim SpanUri SpanPlaces PlacesFacts.
From Verif Require ModelSpan.
Local Open Scope list_scope.

Section Views.
Context {V : Type}.
Variable content : V -> str.
Variable null : V.
Hypothesis null_empty : content null = [].

Lemma nth_content i l : content (nth i l null) = nth i (map content l) [].
Proof. rewrite <- null_empty. symmetry. apply map_nth. Qed.
Lemma upd_map i v l : map content (upd i v l) = upd i (content v) (map content l).
Proof. revert i. induction l as [|x l IH]; intros [|i]; cbn; auto. now rewrite IH. Qed.
Lemma loop_contents n : forall it outit d l,
  let '(o, d', l') := vrds_loop content null n it outit d l in rds_loop n it outit d (map content l) = (o, d', map content l').
Proof.
  induction n as [|n IH]; intros it outit d l; cbn [vrds_loop rds_loop]; [reflexivity|].
  rewrite nth_content. destruct (is_dot _); [apply IH|]. destruct (is_dotdot _); [apply IH|].
  specialize (IH (S it) (S outit) (is_empty (nth it (map content l) [])) (if Nat.eqb outit it then l else upd outit (nth it l null) l)).
  destruct (Nat.eqb outit it); [exact IH|]. rewrite upd_map, nth_content in IH. exact IH.
Qed.
Lemma rds_contents l : map content (vrds content null l) = rds_segments (map content l).
Proof.
  unfold vrds, rds_segments. pose proof (loop_contents (length l) 0 0 false l) as H. rewrite map_length.
  destruct (vrds_loop content null (length l) 0 0 false l) as [[o d] l'] eqn:E. rewrite H.
  rewrite firstn_map. destruct d; [|reflexivity].
  destruct (firstn o l') as [|x k] eqn:Ef; [cbn; now rewrite null_empty|].
  assert (L : last (map content (x :: k)) [] = content (last (x :: k) null)).
  { rewrite <- null_empty. clear. generalize (x :: k) as m. induction m as [|a [|b m] IH]; auto. }
  change (map content (x :: k)) with (content x :: map content k) in L. cbn [map]. rewrite L.
  destruct (is_empty _); cbn [map]; [reflexivity|]. rewrite map_app. cbn. now rewrite null_empty.
Qed.
Lemma upd_forall (P : V -> Prop) i v l : P v -> Forall P l -> Forall P (upd i v l).
Proof. revert i. induction l as [|x l IH]; intros [|i] Hv H; cbn; auto; inversion H; subst; constructor; auto. Qed.
Lemma firstn_forall (P : V -> Prop) n l : Forall P l -> Forall P (firstn n l).
Proof. revert n. induction l as [|x l IH]; intros [|n] H; cbn; auto. inversion H; subst. constructor; auto. Qed.
Lemma loop_forall (P : V -> Prop) : P null -> forall n it outit d l, Forall P l ->
  Forall P (snd (vrds_loop content null n it outit d l)).
Proof.
  intros Hn. induction n as [|n IH]; intros it outit d l H; cbn [vrds_loop]; [exact H|].
  assert (P (nth it l null)). { destruct (nth_in_or_default it l null) as [I| ->]; [|auto]. eapply Forall_forall in H; eauto. }
  destruct (is_dot _); [apply IH; auto|]. destruct (is_dotdot _); [apply IH; auto|]. apply IH.
  destruct (Nat.eqb outit it); auto using upd_forall.
Qed.
Lemma rds_forall (P : V -> Prop) l : P null -> Forall P l -> Forall P (vrds content null l).
Proof.
  intros Hn H. unfold vrds. pose proof (loop_forall P Hn (length l) 0 0 false l H) as L.
  destruct (vrds_loop content null (length l) 0 0 false l) as [[o d] l']. cbn [snd] in L.
  apply (firstn_forall P o) in L. destruct d; [|exact L]. destruct (firstn o l'); [repeat constructor; auto|].
  destruct (is_empty _); [exact L|]. apply Forall_app. split; auto.
Qed.

Lemma omap_auth (a : option (vauth V)) f : option_map content (option_map f a) = option_map (fun x => content (f x)) a.
Proof. now destruct a. Qed.
Lemma join_contents b r strict : contents content (vjoin content null b r strict) = join_parts (contents content b) (contents content r) strict.
Proof.
  unfold join_parts, vjoin.
  change (p_scheme (contents content r)) with (option_map content (v_scheme r)).
  change (p_scheme (contents content b)) with (option_map content (v_scheme b)).
  assert (Hrest : contents content
      (match v_authority r with
       | Some a => mkvparts (v_scheme b) (Some a) (v_absolute r) (vrds content null (v_segments r)) (v_query r) (v_fragment r)
       | None => match v_segments r with
         | [] => mkvparts (v_scheme b) (v_authority b) (v_absolute b) (v_segments b)
                   (match v_query r with Some q => Some q | None => v_query b end) (v_fragment r)
         | _ => if v_absolute r then mkvparts (v_scheme b) (v_authority b) true (vrds content null (v_segments r)) (v_query r) (v_fragment r)
                else let '(abs, segs) := vmerge b r in mkvparts (v_scheme b) (v_authority b) abs (vrds content null segs) (v_query r) (v_fragment r)
         end end)
    = match p_authority (contents content r) with
    | Some a =>
      mkparts (option_map content (v_scheme b)) (Some a) (remove_dot_segments (p_path (contents content r)))
              (p_query (contents content r)) (p_fragment (contents content r))
    | None =>
      if path_is_empty (p_path (contents content r)) then
        mkparts (option_map content (v_scheme b)) (p_authority (contents content b)) (p_path (contents content b))
                (match p_query (contents content r) with Some q => Some q | None => p_query (contents content b) end)
                (p_fragment (contents content r))
      else if absolute (p_path (contents content r)) then
        mkparts (option_map content (v_scheme b)) (p_authority (contents content b)) (remove_dot_segments (p_path (contents content r)))
                (p_query (contents content r)) (p_fragment (contents content r))
      else
        mkparts (option_map content (v_scheme b)) (p_authority (contents content b)) (remove_dot_segments (merge (contents content b) (contents content r)))
                (p_query (contents content r)) (p_fragment (contents content r))
    end).
  { destruct r as [rs ra rabs rseg rq rf], b as [bs ba babs bseg bq bf].
    cbn [v_scheme v_authority v_absolute v_segments v_query v_fragment].
    destruct ra as [ra|]; cbn [contents p_authority p_path p_query p_fragment option_map v_scheme v_authority v_absolute v_segments v_query v_fragment path_is_empty segments absolute].
    - unfold contents, remove_dot_segments. cbn [v_scheme v_authority v_absolute v_segments v_query v_fragment absolute segments]. rewrite rds_contents. reflexivity.
    - destruct rseg as [|x rseg]; cbn [map path_is_empty segments].
      + unfold contents; cbn. destruct rq; reflexivity.
      + destruct rabs.
        * unfold contents, remove_dot_segments; cbn [v_scheme v_authority v_absolute v_segments v_query v_fragment absolute segments].
          rewrite rds_contents. reflexivity.
        * unfold vmerge, merge. cbn [v_scheme v_authority v_absolute v_segments v_query v_fragment contents p_authority p_path path_is_empty segments absolute option_map].
          destruct ba as [ba|], bseg as [|y bseg]; cbn [option_map map path_is_empty segments absolute];
            unfold contents, remove_dot_segments; cbn [v_scheme v_authority v_absolute v_segments v_query v_fragment absolute segments];
            rewrite rds_contents, ?map_app; cbn [map]; try reflexivity.
          all: cbn [length]; rewrite map_length; destruct (Nat.ltb 1 (S (length bseg))); [|reflexivity];
            change (content y :: map content bseg) with (map content (y :: bseg)); rewrite firstn_map; reflexivity. }
  destruct (negb strict && _)%bool; [exact Hrest|].
  destruct (v_scheme r) as [s|] eqn:Es; cbn [option_map]; [|exact Hrest].
  unfold contents, remove_dot_segments; cbn [v_scheme v_authority v_absolute v_segments v_query v_fragment absolute segments p_authority p_path p_query p_fragment].
  rewrite rds_contents. reflexivity.
Qed.

Ltac all := repeat match goal with
  | H : Forall _ (_ ++ _) |- _ => apply Forall_app in H; destruct H
  | |- Forall _ (_ ++ _) => apply Forall_app; split
  end; auto.
Lemma join_forall (P : V -> Prop) b r strict : P null -> Forall P (all_views b) -> Forall P (all_views r) ->
  Forall P (all_views (vjoin content null b r strict)).
Proof.
  intros Hn Hb Hr. unfold all_views in Hb, Hr.
  apply Forall_app in Hb; destruct Hb as [B1 Hb]. apply Forall_app in Hb; destruct Hb as [B2 Hb].
  apply Forall_app in Hb; destruct Hb as [B3 Hb]. apply Forall_app in Hb; destruct Hb as [B4 B5].
  apply Forall_app in Hr; destruct Hr as [R1 Hr]. apply Forall_app in Hr; destruct Hr as [R2 Hr].
  apply Forall_app in Hr; destruct Hr as [R3 Hr]. apply Forall_app in Hr; destruct Hr as [R4 R5].
  assert (G : forall s a abs l q f, Forall P (opt_list s) -> Forall P (auth_views a) -> Forall P l -> Forall P (opt_list q) -> Forall P (opt_list f) ->
    Forall P (all_views (mkvparts s a abs l q f))).
  { intros. unfold all_views. cbn. repeat (apply Forall_app; split; auto). }
  assert (Hm : Forall P (snd (vmerge b r))).
  { unfold vmerge. destruct (v_authority b), (v_segments b) as [|y l]; cbn [snd]; auto;
    apply Forall_app; split; auto; destruct (Nat.ltb _ _); auto using firstn_forall. }
  unfold vjoin.
  match goal with |- context [match ?x with Some _ => _ | None => _ end] => destruct x as [s|] eqn:E end.
  - apply G; auto using rds_forall. destruct (negb strict && _)%bool in E; [discriminate|]. now rewrite E in R1.
  - clear E. destruct (v_authority r) as [a|] eqn:Ea; [apply G; auto using rds_forall|].
    destruct (v_segments r) as [|x l] eqn:El.
    + apply G; auto. destruct (v_query r); auto.
    + destruct (v_absolute r); [apply G; auto using rds_forall|].
      destruct (vmerge b r) as [abs l']. apply G; auto using rds_forall.
Qed.
End Views.

(* --- the string version ------------------------------------------------------------------------------ *)
Lemma from_views src p : all_views (from_parts src p) = map (from src) (views p).
Proof.
  destruct p as [s a abs l q f]. unfold all_views, views, from_parts. cbn.
  rewrite !map_app. f_equal; [now destruct s|]. f_equal.
  { destruct a as [[u h pt]|]; [|reflexivity]. cbn. rewrite map_app. cbn. f_equal; [now destruct u|]. f_equal. now destruct pt. }
  f_equal. f_equal; [now destruct q|now destruct f].
Qed.
Lemma from_content_base b r p : contents (scontent b r) (from_parts Base p) = shown_parts b p.
Proof.
  assert (E : forall x, scontent b r (from Base x) = shown b x) by (intros [[o k]|]; reflexivity).
  destruct p as [s a abs l q f]. unfold contents, from_parts, shown_parts. cbn.
  f_equal; try (match goal with |- option_map _ (option_map _ ?x) = _ => destruct x; cbn; rewrite ?E; reflexivity end).
  - destruct a as [[u h pt]|]; [|reflexivity]. cbn. rewrite E. f_equal. f_equal; [destruct u|destruct pt]; cbn; rewrite ?E; reflexivity.
  - f_equal. rewrite map_map. apply map_ext, E.
Qed.
Lemma from_content_ref b r p : contents (scontent b r) (from_parts Reference p) = shown_parts r p.
Proof.
  assert (E : forall x, scontent b r (from Reference x) = shown r x) by (intros [[o k]|]; reflexivity).
  destruct p as [s a abs l q f]. unfold contents, from_parts, shown_parts. cbn.
  f_equal; try (match goal with |- option_map _ (option_map _ ?x) = _ => destruct x; cbn; rewrite ?E; reflexivity end).
  - destruct a as [[u h pt]|]; [|reflexivity]. cbn. rewrite E. f_equal. f_equal; [destruct u|destruct pt]; cbn; rewrite ?E; reflexivity.
  - f_equal. rewrite map_map. apply map_ext, E.
Qed.
Lemma join_views_spec sg fuel b r strict p : join sg fuel b r strict = Ok (Some p) ->
  exists v, join_views sg fuel b r strict = Ok (Some v) /\ contents (scontent b r) v = p /\ Forall (borrowed b r) (all_views v).
Proof.
  unfold join. destruct (split sg fuel b) as [[bp|]| |] eqn:Eb; cbn [bind]; try discriminate.
  destruct (split_reference sg fuel r) as [[rp|]| |] eqn:Er; cbn [bind]; try discriminate. intros E. injection E as <-.
  destruct (split_views _ _ _ _ Eb) as (vb & nb & Sb & Tb & Pb). destruct (split_reference_views _ _ _ _ Er) as (vr & nr & Sr & Tr & Pr).
  unfold join_views. rewrite Sb, Sr. eexists. split; [reflexivity|]. split.
  - rewrite join_contents by reflexivity. now rewrite from_content_base, from_content_ref, Tb, Tr.
  - apply join_forall; [exact I|..]; rewrite from_views; apply Forall_map.
    + eapply Forall_impl; [|exact (placed_inside _ _ Pb)]. intros [[o k]|]; cbn; auto.
    + eapply Forall_impl; [|exact (placed_inside _ _ Pr)]. intros [[o k]|]; cbn; auto.
Qed.

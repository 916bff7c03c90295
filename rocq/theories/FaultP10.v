(** The noise of an experiment only causes possible faults (C75). *)
From Coq Require Import QArith Qcanon.
From Verif Require Import Base Lib StimM SetupM NoiseM SpecNoise NoiseP LayoutM SpecLayout DetM BlockM ExpM SpecGen SpecTrack SpecExp SpecFault TrackP LiftP
  ExpDetP ExpP3 ExpP4 ExpP5.
Open Scope Z_scope.

Lemma nodup_r {A} (l l' : list A) : NoDup (l ++ l') -> NoDup l'.
Proof. induction l as [|a l IH]; [auto|]. intros H. inversion H. auto. Qed.

(** * Gates and noise of pairs, in order *)
Inductive ev := EG (g : gate Z) | EN (t : list target).
Definition pair_noise (i : instr) : bool := is_noise (nm i) && is_two (nm i).
Definition evi (i : instr) : list ev :=
  if pair_noise i then map EN (pairs_of (tg i)) else map EG (flat_map gate_of_atom (instr_atoms i)).
Definition evs (c : circuit) : list ev := flat_map evi c.
Definition gev (l : list ev) : list (gate Z) := flat_map (fun e => match e with EG g => [g] | EN _ => [] end) l.
Lemma gev_app a b : gev (a ++ b) = gev a ++ gev b.
Proof. apply flat_map_app. Qed.
Lemma gev_EG l : gev (map EG l) = l.
Proof. induction l as [|g l IH]; [reflexivity|]. cbn. now f_equal. Qed.
Lemma gev_EN l : gev (map EN l) = [].
Proof. induction l as [|g l IH]; [reflexivity|exact IH]. Qed.
Lemma gev_gates c : gev (evs c) = gates c.
Proof.
  unfold gates, ideal, evs. induction c as [|i c IH]; [reflexivity|]. cbn [flat_map]. rewrite gev_app, IH, flat_map_app. f_equal.
  unfold evi, pair_noise. destruct (is_noise (nm i)) eqn:E; cbn [andb]; [|apply gev_EG]. unfold instr_atoms. rewrite E. cbn [orb flat_map].
  destruct (is_two (nm i)); [apply gev_EN|reflexivity].
Qed.
Lemma additive_evi : additive evi.
Proof.
  intros i j H1 H2 H3 Hi Hj. unfold evi, pair_noise. cbn [nm tg]. rewrite H1. destruct (is_noise (nm j) && is_two (nm j)) eqn:E.
  - apply andb_true_iff in E as [_ E]. rewrite <- map_app. f_equal. pose proof (two_ok _ Hj E) as P. apply even_pairs_ok in P as [p ->]. apply pairs_of_app.
  - rewrite <- map_app. f_equal. unfold instr_atoms. cbn [nm tg ar]. rewrite H1, H2. destruct (is_noise (nm j) || eqb (nm j) GI); [reflexivity|].
    destruct (is_annotation (nm j)) eqn:Ea; [reflexivity|]. destruct (is_two (nm j)) eqn:E2.
    + rewrite pair_atoms_app by now apply two_ok. apply flat_map_app.
    + rewrite map_app. apply flat_map_app.
Qed.

Definition sound (l : list ev) : Prop := forall l1 t l2, l = l1 ++ EN t :: l2 ->
  exists x y, t = [TQ x; TQ y] /\ x <> y /\ just_coupled (gev l1) x y.
Lemma coupled_app p l a b : just_coupled l a b -> just_coupled (p ++ l) a b.
Proof. intros (q & g & s & -> & G & F). exists (p ++ q), g, s. split; [now rewrite app_assoc|]. split; assumption. Qed.
Lemma sound_nil : sound [].
Proof. intros [|e l1] t l2 E; discriminate E. Qed.
Lemma sound_app a b : sound a -> sound b -> sound (a ++ b).
Proof.
  intros Sa Sb l1 t l2 E. apply app_eq_app in E as (m & [[E1 E2]|[E1 E2]]).
  - destruct m as [|e m].
    + rewrite app_nil_r in E1. subst l1. cbn in E2. destruct (Sb [] t l2) as (x & y & Et & Ne & C); [now rewrite E2|]. exists x, y. split; [exact Et|]. split; [exact Ne|].
      cbn [gev] in C. rewrite <- (app_nil_r (gev a)). now apply coupled_app.
    + cbn in E2. injection E2 as <- ->. now apply (Sa l1 t m).
  - subst l1. destruct (Sb m t l2 E2) as (x & y & Et & Ne & C). exists x, y. split; [exact Et|]. split; [exact Ne|]. rewrite gev_app. now apply coupled_app.
Qed.
Definition calm (c : circuit) : Prop := Forall (fun i => pair_noise i = false) c.
Lemma calm_sound c : calm c -> sound (evs c).
Proof.
  induction 1 as [|i c Hi _ IH]; [apply sound_nil|]. unfold evs. cbn [flat_map]. apply sound_app; [|exact IH]. unfold evi. rewrite Hi.
  intros l1 t l2 E. assert (H : In (EN t) (map EG (flat_map gate_of_atom (instr_atoms i)))) by (rewrite E; apply in_elt). apply in_map_iff in H as (g & H & _). discriminate H.
Qed.
Lemma calm_append c i : calm c -> pair_noise i = false -> calm (append c i).
Proof.
  intros Hc Hi. destruct (append_app c i) as [->|(c' & j & -> & H2 & H3 & H4 & ->)].
  - apply Forall_app; split; auto.
  - apply Forall_app in Hc as [Hc Hj]. apply Forall_app; split; auto. constructor; [|constructor]. now inversion Hj.
Qed.
Lemma evs_app a b : evs (a ++ b) = evs a ++ evs b.
Proof. apply flat_map_app. Qed.
Lemma sound_circ a b : sound (evs a) -> sound (evs b) -> sound (evs (a ++ b)).
Proof. intros. rewrite evs_app. now apply sound_app. Qed.
Lemma sound_possible c f : sound (evs c) -> caused c f -> possible c f.
Proof.
  intros S [n i q x z _ _ _ _|n i a xa za b xb zb Hn E1 E2 Hp|n i k _ _ _ _]; try exact I.
  apply nth_error_split in Hn as (c1 & c2 & -> & Ln). apply in_split in Hp as (p1 & p2 & Ep).
  destruct (S (evs c1 ++ map EN p1) [TQ a; TQ b] (map EN p2 ++ evs c2)) as (x & y & Et & Ne & C).
  { rewrite evs_app. unfold evs at 2. cbn [flat_map]. unfold evi at 1, pair_noise. rewrite E1, E2. cbn [andb]. rewrite Ep, map_app. cbn [map]. rewrite <- !app_assoc. reflexivity. }
  injection Et as <- <-. cbn [possible]. split; [exact Ne|]. rewrite gev_app, gev_EN, app_nil_r, gev_gates in C.
  subst n. rewrite firstn_app, Nat.sub_diag. cbn [firstn]. rewrite app_nil_r, firstn_all. exact C.
Qed.

(** * The operations of the noise models *)
Definition noise1 (f : string -> Z -> res instr) : Prop := forall q i j, f q i = Ok j -> pair_noise j = false.
Lemma mk_nm g t a j : mk g t a = Ok j -> j = Instr g t a.
Proof. intros H. now apply mk_ok in H as [-> _]. Qed.
Lemma chan1_calm m g p : is_two g = false -> noise1 (chan1 m g p).
Proof. intros H q i j E. apply chan1_shape in E as (v & x & _ & _ & -> & _). unfold pair_noise. cbn [nm]. now rewrite H, andb_false_r. Qed.
Lemma bchan1_calm m p : noise1 (bchan1 m p).
Proof. intros q i j E. unfold bchan1 in E. dbind E. apply mk_nm in E as ->. reflexivity. Qed.
Lemma foldM_calm {A} (f : A -> res instr) l : (forall x j, f x = Ok j -> pair_noise j = false) -> forall c c',
  calm c -> foldM (fun c x => do i <- f x; Ok (append c i)) l c = Ok c' -> calm c'.
Proof.
  intros Hf. induction l as [|x l IH]; intros c c' Hc E; cbn [foldM] in E; [now injection E as <-|].
  apply bind_ok in E as (c1 & E1 & E). apply bind_ok in E1 as (j & Ej & E1). injection E1 as <-. eapply IH; [|exact E]. apply calm_append; [exact Hc|]. now apply (Hf x).
Qed.
Lemma chans_calm f l c c' : noise1 f -> calm c -> chans f l c = Ok c' -> calm c'.
Proof. intros Hf Hc E. unfold chans in E. eapply (foldM_calm (fun qi => f (fst qi) (snd qi))); [|exact Hc|exact E]. intros x j. apply Hf. Qed.
Lemma one_calm g t a : is_noise g && is_two g = false -> calm (append [] (Instr g t a)).
Proof. intros H. constructor; [exact H|constructor]. Qed.
Lemma gate1_calm m g f qs c : is_noise g && is_two g = false -> noise1 f -> gate1 m g f qs = Ok c -> calm c.
Proof. intros Hg Hf E. unfold gate1 in E. dbind E. dbind E. apply mk_nm in E1 as ->. eapply chans_calm; [exact Hf| |exact E]. now apply one_calm. Qed.
Lemma gate0_calm m g qs c : is_noise g && is_two g = false -> gate0 m g qs = Ok c -> calm c.
Proof. intros Hg E. unfold gate0 in E. dbind E. dbind E. apply mk_nm in E1 as ->. injection E as <-. now apply one_calm. Qed.
Lemma idle1_calm m f qs c : noise1 f -> idle1 m f qs = Ok c -> calm c.
Proof. intros Hf E. unfold idle1 in E. dbind E. eapply chans_calm; [exact Hf| |exact E]. constructor. Qed.
Lemma idle_dur_calm m d qs c : idle_dur m d qs = Ok c -> calm c.
Proof.
  intros E. unfold idle_dur in E. eapply (foldM_calm (idle_chan m d)); [|constructor|exact E]. intros q j H. unfold idle_chan in H. do 4 dbind H.
  destruct (negb _); [discriminate|]. dbind H. destruct (negb _); [discriminate|]. dbind H. apply mk_nm in H as ->. reflexivity.
Qed.
Lemma generic_calm m sym n g qs c : is_noise g && is_two g = false -> generic_op m sym n g qs = Ok c -> calm c.
Proof.
  intros Hg E. unfold generic_op in E. destruct sym.
  - do 5 dbind E. injection E as <-. apply mk_nm in E3 as ->. apply Forall_app. split; [apply calm_append; [eapply idle_dur_calm; eauto|exact Hg]|eapply idle_dur_calm; eauto].
  - do 4 dbind E. injection E as <-. apply mk_nm in E2 as ->. constructor; [exact Hg|eapply idle_dur_calm; eauto].
Qed.
Lemma incoming_calm m qs c : incoming1 m qs = Ok c -> calm c.
Proof.
  intros E. unfold incoming1 in E. dbind E. dbind E. eapply chans_calm; [| |exact E]; [apply chan1_calm; reflexivity|]. eapply chans_calm; [| |exact E1]; [apply chan1_calm; reflexivity|constructor].
Qed.
Lemma meas_instr_calm m g q i j : is_meas g = true -> meas_instr m g q i = Ok j -> pair_noise j = false.
Proof.
  intros Hg E. unfold meas_instr in E. dbind E. assert (is_noise g && is_two g = false) by now destruct g.
  destruct (truthy a); [dbind E; dbind E|]; apply mk_nm in E as ->; assumption.
Qed.
Lemma sfold_calm {A} (f : A -> string) (s : A -> model -> res instr) l : (forall x m j, s x m = Ok j -> pair_noise j = false) -> forall c m m' c',
  calm c -> sfold (fun c x => sdo _ <- add_meas (f x); sdo i <- sread (s x); sret (append c i)) l c m = (m', Ok c') -> calm c'.
Proof.
  intros Hf. induction l as [|x l IH]; intros c m m' c' Hc E; cbn [sfold] in E; [apply sret_ok in E as [_ <-]; exact Hc|].
  apply sbind_ok in E as (m1 & c1 & E1 & E). apply sbind_ok in E1 as (m2 & u & _ & E1). apply sbind_ok in E1 as (m3 & i & E2 & E1).
  apply sread_ok in E2 as [-> E2]. apply sret_ok in E1 as [-> <-]. eapply IH; [|exact E]. apply calm_append; [exact Hc|]. now apply Hf in E2.
Qed.
Lemma measure1_calm e g qs m m' c : is_two e = false -> is_meas g = true -> measure1 e g qs m = (m', Ok c) -> calm c.
Proof.
  intros He Hg E. unfold measure1 in E. apply sbind_ok in E as (m1 & is & _ & E). apply sbind_ok in E as (m2 & c0 & E0 & E). apply sread_ok in E0 as [-> E0].
  apply (sfold_calm fst (fun qi m => meas_instr m g (fst qi) (snd qi))) in E; [exact E| |].
  - intros x m0 j. now apply meas_instr_calm.
  - eapply chans_calm; [| |exact E0]; [apply (chan1_calm _ _ _ He)|constructor].
Qed.
Lemma measure0_calm g qs m m' c : is_meas g = true -> measure0 g qs m = (m', Ok c) -> calm c.
Proof.
  intros Hg E. unfold measure0 in E. apply (sfold_calm (fun q => q) (fun q m => do is <- get_inds m [q]; mk g (map TQ is) [])) in E; [exact E| |constructor].
  intros x m0 j H. dbind H. apply mk_nm in H as ->. unfold pair_noise. now destruct g.
Qed.
Lemma measure_decoh_calm sym n g qs m m' c : is_meas g = true -> measure_decoh sym n g qs m = (m', Ok c) -> calm c.
Proof.
  intros Hg E. unfold measure_decoh in E. destruct sym.
  - apply sbind_ok in E as (m1 & d & _ & E). apply sbind_ok in E as (m2 & c1 & E1 & E). apply sread_ok in E1 as [-> E1]. apply sbind_ok in E as (m3 & c2 & E2 & E).
    apply sbind_ok in E as (m4 & c3 & E3 & E). apply sread_ok in E3 as [-> E3]. apply sret_ok in E as [_ <-]. apply Forall_app. split; [|eapply idle_dur_calm; eauto].
    apply (sfold_calm (fun q => q) (fun q m => do is <- get_inds m [q]; meas_instr m g q (nth 0 is 0))) in E2; [exact E2| |eapply idle_dur_calm; eauto].
    intros x m0 j H. dbind H. eapply meas_instr_calm; eauto.
  - apply sbind_ok in E as (m1 & d & _ & E). destruct qs as [|q qs]; [apply sret_ok in E as [_ <-]; constructor|]. apply sbind_ok in E as (m2 & u & _ & E). discriminate E.
Qed.
(* a channel that follows a gate on two qubits *)
Definition noise2 (f : string * string -> Z * Z -> res instr) : Prop :=
  forall q i j, f q i = Ok j -> good j /\ pair_noise j = true /\ tg j = [TQ (fst i); TQ (snd i)].
Lemma chan2_noise m g p : is_noise g && is_two g = true -> noise2 (chan2 m g p).
Proof.
  intros Hg q i j E. apply chan2_shape in E as (v & x & _ & _ & -> & Ok). split; [|auto]. split; [exact Ok|]. cbn [nm]. destruct g; try discriminate Hg; reflexivity.
Qed.
Lemma bchan2_noise m p : noise2 (bchan2 m p).
Proof. intros q i j E. unfold bchan2 in E. dbind E. apply mk_good in E as [-> G]; [|reflexivity]. auto. Qed.
Definition flat2 (l : list (Z * Z)) : list Z := flat_map (fun p => [fst p; snd p]) l.
Lemma grouper_flat is : forall ip, grouper2 is = Ok ip -> is = flat2 ip.
Proof.
  assert (H : forall n is ip, (length is <= n)%nat -> grouper2 is = Ok ip -> is = flat2 ip).
  { induction n as [|n IH]; intros [|x [|y l]] ip Hl E; cbn in Hl; try lia; cbn [grouper2] in E; try discriminate E; try (injection E as <-; reflexivity).
    dbind E. injection E as <-. cbn. do 2 f_equal. apply IH; [lia|exact E0]. }
  intros ip. now apply (H (length is)).
Qed.
Lemma gates_flat2 g ip : is_noise g = false -> is_two g = true -> evi (Instr g (map TQ (flat2 ip)) []) = map EG (map (fun p => G2 g (fst p) (snd p)) ip).
Proof.
  intros Hn H2. unfold evi, pair_noise. cbn [nm tg]. rewrite Hn. cbn [andb]. unfold instr_atoms. cbn [nm tg]. rewrite Hn, H2. cbn [orb].
  replace (eqb g GI) with false by (symmetry; destruct g; try discriminate H2; reflexivity). replace (is_annotation g) with false by (destruct g; try discriminate H2; reflexivity).
  f_equal. induction ip as [|p ip IH]; [reflexivity|]. cbn [flat2 flat_map map app pair_atoms gate_of_atom]. now f_equal.
Qed.
Lemma untouched g x y ip : ~ In x (flat2 ip) -> ~ In y (flat2 ip) ->
  Forall (fun h => SpecExp.touches x h = false /\ SpecExp.touches y h = false) (map (fun p => G2 g (fst p) (snd p)) ip).
Proof.
  intros Hx Hy. apply Forall_forall. intros h Hh. apply in_map_iff in Hh as (p & <- & Hp).
  assert (K : forall z, ~ In z (flat2 ip) -> SpecExp.touches z (G2 g (fst p) (snd p)) = false).
  { intros z Hz. cbn [SpecExp.touches]. apply orb_false_iff. split; apply eqb_neq; intros ->; apply Hz; apply in_flat_map; exists p; cbn; auto. }
  split; now apply K.
Qed.
Lemma pair_sound g ip js : is_noise g = false -> is_two g = true -> NoDup (flat2 ip) -> incl js ip ->
  sound (evi (Instr g (map TQ (flat2 ip)) []) ++ map (fun p : Z * Z => EN [TQ (fst p); TQ (snd p)]) js).
Proof.
  intros Hn H2 N Hi l1 t l2 E. rewrite gates_flat2 in E by assumption. apply app_eq_app in E as (m & [[E1 E2]|[E1 E2]]).
  - assert (m = []) as ->.
    { destruct m as [|e m]; [reflexivity|]. cbn in E2. injection E2 as <- _. assert (K : In (EN t) (map EG (map (fun p => G2 g (fst p) (snd p)) ip))) by (rewrite E1; apply in_elt).
      apply in_map_iff in K as (h & K & _). discriminate K. }
    rewrite app_nil_r in E1. subst l1. cbn [app] in E2. destruct js as [|p js]; [discriminate E2|]. cbn [map] in E2. injection E2 as -> _.
    exists (fst p), (snd p). assert (Hp : In p ip) by (apply Hi; now left). split; [reflexivity|]. rewrite gev_EG.
    apply in_split in Hp as (i1 & i2 & Eip). rewrite Eip in N |- *. unfold flat2 in N. rewrite flat_map_app in N. cbn [flat_map app] in N.
    apply nodup_r in N. inversion N as [|a0 l0 Na N' [E3 E4]]. subst. inversion N' as [|a1 l3 Nb _ [E5 E6]]. subst.
    split; [intros K; apply Na; left; congruence|]. rewrite map_app. exists (map (fun p => G2 g (fst p) (snd p)) i1), (G2 g (fst p) (snd p)), (map (fun p => G2 g (fst p) (snd p)) i2).
    split; [reflexivity|]. split; [exists g; now left|]. apply untouched; [intros K; apply Na; now right|exact Nb].
  - assert (In t (map (fun p : Z * Z => [TQ (fst p); TQ (snd p)]) js)) as Ht.
    { assert (K : In (EN t) (map (fun p : Z * Z => EN [TQ (fst p); TQ (snd p)]) js)) by (rewrite E2; apply in_elt). apply in_map_iff in K as (p & K & Hp). injection K as <-. apply in_map_iff. eauto. }
    apply in_map_iff in Ht as (p & <- & Hp). exists (fst p), (snd p). split; [reflexivity|]. subst l1. rewrite gev_app, gev_EG.
    assert (gev m = []) as ->.
    { assert (K : exists js1, m = map EN js1). { clear -E2. revert m E2. induction js as [|q js IH]; intros [|e m] E2; cbn [map app] in E2; try discriminate E2; [exists []; reflexivity|].
      injection E2 as <- E2. apply IH in E2 as [js1 ->]. exists ([TQ (fst q); TQ (snd q)] :: js1). reflexivity. } destruct K as [js1 ->]. apply gev_EN. }
    rewrite app_nil_r. apply Hi in Hp.
    apply in_split in Hp as (i1 & i2 & Eip). rewrite Eip in N |- *. unfold flat2 in N. rewrite flat_map_app in N. cbn [flat_map app] in N.
    apply nodup_r in N. inversion N as [|a0 l0 Na N' [E3 E4]]. subst. inversion N' as [|a1 l3 Nb _ [E5 E6]]. subst.
    split; [intros K; apply Na; left; congruence|]. rewrite map_app. exists (map (fun p => G2 g (fst p) (snd p)) i1), (G2 g (fst p) (snd p)), (map (fun p => G2 g (fst p) (snd p)) i2).
    split; [reflexivity|]. split; [exists g; now left|]. apply untouched; [intros K; apply Na; now right|exact Nb].
Qed.
Lemma get_inds_nodup m qs is : wf_inds (inds m) -> NoDup qs -> get_inds m qs = Ok is -> NoDup is.
Proof.
  intros W N E. apply get_inds_F2 in E. induction E as [|q i qs is Hq F IH]; [constructor|]. inversion N as [|a0 l0 Na N' [E3 E4]]. subst. constructor; [|now apply IH].
  intros Hi. apply Na. clear -Hi F W Hq. induction F as [|q' i' qs is Hq' F IH]; [destruct Hi|]. destruct Hi as [->|Hi]; [left|right; now apply IH].
  eapply inj_inds; eauto.
Qed.
Lemma gate2_sound m g f qs c : is_noise g = false -> is_two g = true -> noise2 f -> wf_inds (inds m) -> NoDup qs -> gate2 m g f qs = Ok c -> sound (evs c).
Proof.
  intros Hn H2 Hf W N E. apply gate2_shape in E as (is & qp & ip & js & Hi & _ & Ei & F & _ & (_ & _ & B) & _); [|now destruct g|].
  - unfold evs. rewrite (B _ _ additive_evi). cbn [flat_map]. pose proof (get_inds_nodup m qs is W N Hi) as Ni. apply grouper_flat in Ei. subst is.
    assert (K : exists ps, incl ps ip /\ flat_map evi js = map (fun p : Z * Z => EN [TQ (fst p); TQ (snd p)]) ps).
    { assert (G : forall L, Forall2 (fun qi j => f (fst qi) (snd qi) = Ok j) L js -> flat_map evi js = map (fun p : Z * Z => EN [TQ (fst p); TQ (snd p)]) (map snd L)).
      { intros L FL. clear -FL Hf. induction FL as [|qi j L js Hj _ IH]; [reflexivity|]. cbn [flat_map map]. rewrite IH. apply Hf in Hj as (_ & Hp & Ht). unfold evi at 1. rewrite Hp, Ht. reflexivity. }
      exists (map snd (combine qp ip)). split; [|now apply G]. intros p Hp. apply in_map_iff in Hp as ([a b] & <- & Hp). now apply in_combine_r in Hp. }
    destruct K as (ps & Hps & ->). now apply pair_sound.
  - intros q i j Hj. apply Hf in Hj as (G & Hp & _). split; [exact G|]. unfold pair_noise in Hp. now apply andb_true_iff in Hp.
Qed.
Definition pair_op (o : op) : bool := match o with OCZ | OCX | OSWAP => true | _ => false end.
Lemma apply_sound o qs m m' c : wf_inds (inds m) -> (pair_op o = true -> NoDup qs) -> apply o qs m = (m', Ok c) -> sound (evs c).
Proof.
  intros W N H. unfold apply in H.
  destruct (kind m) eqn:K; destruct o;
    first
    [ injection H as <- H; first
      [ discriminate H
      | subst c; apply sound_nil
      | apply calm_sound; eapply incoming_calm; exact H
      | apply calm_sound; refine (gate0_calm _ _ _ _ _ H); reflexivity
      | apply calm_sound; refine (gate1_calm _ _ _ _ _ _ _ H); [reflexivity|first [apply chan1_calm; reflexivity|apply bchan1_calm]]
      | refine (gate2_sound _ _ _ _ _ _ _ _ W (N eq_refl) H); [reflexivity|reflexivity|first [apply chan2_noise; reflexivity|apply bchan2_noise]]
      | apply calm_sound; refine (generic_calm _ _ _ _ _ _ _ H); reflexivity
      | apply calm_sound; refine (idle1_calm _ _ _ _ _ H); first [apply chan1_calm; reflexivity|apply bchan1_calm]
      | apply calm_sound; eapply idle_dur_calm; exact H ]
    | apply calm_sound; refine (measure1_calm _ _ _ _ _ _ _ _ H); reflexivity
    | apply calm_sound; refine (measure0_calm _ _ _ _ _ _ H); reflexivity
    | apply calm_sound; refine (measure_decoh_calm _ _ _ _ _ _ _ _ H); reflexivity ].
Qed.

(** The latency evaluator: the theorems. *)
From Coq Require Import String Permutation.
From Verif Require Import Base ResultLib ListLib MonadLib KpModel KpProofs LatModel LatSpec LatProofs.
Open Scope list_scope.

Section Main.
Context {V St : Type} (first_dim : V -> option nat).

Lemma call_unique (sub : submission V St) st f o o' : NoDup (map fst (arrays f)) -> good_call first_dim sub st f o -> good_call first_dim sub st f o' -> o = o'.
Proof. intros N (d & G & R & _) (d' & G' & R' & _). rewrite (given_unique _ _ _ _ N G G') in R. congruence. Qed.
Lemma runs_unique (sub : submission V St) st l os st' : runs first_dim sub st l os st' -> Forall (fun f => NoDup (map fst (arrays f))) l -> forall os' st'', runs first_dim sub st l os' st'' -> os = os' /\ st' = st''.
Proof.
  induction 1 as [st|st f l o os st' G R IH]; intros N os' st'' R'; inversion R' as [|st1 f1 l1 o1 os1 st1' G' R1]; subst; [auto|]. inversion N as [|f' l' Nf Nl]; subst.
  assert (o = o1) by (apply (call_unique sub st f); assumption). subst o1. destruct (IH Nl _ _ R1) as (-> & ->). auto.
Qed.
Lemma runs_split (sub : submission V St) st l m os st' : runs first_dim sub st (l ++ m) os st' -> exists os1 st1 os2, os = os1 ++ os2 /\ runs first_dim sub st l os1 st1 /\ runs first_dim sub st1 m os2 st'.
Proof.
  revert st os. induction l as [|f l IH]; intros st os R; cbn [app] in R; [exists [], st, os; split; [reflexivity|split; [constructor|exact R]]|].
  inversion R as [|st1 f1 l1 o os1 st1' G R1]; subst. destruct (IH _ _ R1) as (os1' & st1 & os2 & -> & A & B). exists (o :: os1'), st1, os2. split; [reflexivity|]. split; [now constructor|exact B].
Qed.
Lemma unfit (sub : submission V St) st before f rest os st' : Forall (fun f => NoDup (map fst (arrays f))) before -> runs first_dim sub st before os st' -> (forall o, ~ good_call first_dim sub st' f o) ->
  forall os' st'', ~ runs first_dim sub st (before ++ f :: rest) os' st''.
Proof.
  intros N R B os' st'' R'. apply runs_split in R'. destruct R' as (os1 & st1 & os2 & _ & R1 & R2). destruct (runs_unique _ _ _ _ _ R N _ _ R1) as (_ & <-).
  inversion R2 as [|st2 f2 l2 o os3 st3 G R3]; subst. exact (B o G).
Qed.
Theorem outcome (sub : submission V St) input st : listing input -> initialize sub = Ok st ->
  (snd (evaluator first_dim sub input) = Ok tt <-> exists os st', runs first_dim sub st (frames input) os st').
Proof.
  intros L E. destruct (evaluator_cases first_dim sub input st L E) as [(os & st' & R & Ev)|(e & before & f & rest & os & st' & Ef & R & B & Ev)]; rewrite Ev; cbn [snd].
  - split; [eauto|reflexivity].
  - split; [discriminate|]. intros (os' & st'' & R'). exfalso. rewrite Ef in R'. apply (unfit sub st before f rest os st') in R'; [exact R'| |exact R|exact B].
    destruct L as (_ & L). rewrite Ef in L. now apply Forall_app in L.
Qed.
Theorem no_model (sub : submission V St) input e : initialize sub = Err e -> evaluator first_dim sub input = ([], Err e).
Proof. intros E. unfold evaluator. now rewrite E. Qed.

Lemma complete_list (sub : submission V St) (a b : files V) l os : (forall g, In g l -> same_on (of_frame g) a b) -> Forall2 (complete sub a) l os -> Forall2 (complete sub b) l os.
Proof.
  intros W C. revert W. induction C as [|g o l os C F IH]; intros W; constructor; [apply (complete_same sub _ _ _ _ (W g (or_introl eq_refl)) C)|].
  apply IH. intros g' Hg'. apply W. now right.
Qed.
Theorem success (sub : submission V St) input st (fs : files V) : listing input -> initialize sub = Ok st -> snd (evaluator first_dim sub input) = Ok tt ->
  exists os st', runs first_dim sub st (frames input) os st' /\
    let fs' := after (fst (evaluator first_dim sub input)) fs in
    Forall2 (complete sub fs') (frames input) os /\ fs' LatencyFile = Some (Numbers (map (fun o => toc o - tic o)%Z os)) /\
    forall p, p <> LatencyFile -> (forall f, In f (frames input) -> ~ of_frame f p) -> fs' p = fs p.
Proof.
  intros L E H. destruct (evaluator_cases first_dim sub input st L E) as [(os & st' & R & Ev)|(e & before & f & rest & os & st' & Ef & R & B & Ev)]; rewrite Ev in H |- *; cbn [fst snd] in *; [|discriminate].
  exists os, st'. split; [exact R|]. cbv zeta. split; [|split].
  - pose proof (runs_complete first_dim sub st _ os st' R (proj1 L) fs) as C. revert C. apply Forall2_weaken. intros f o. apply complete_same. intros p Hp. rewrite after_app. symmetry. apply untouched.
    intros [Q|[Q|[]]]; cbn [target] in Q; subst p; now apply not_latency in Hp.
  - unfold write. change [Create LatencyFile; Fill LatencyFile (Numbers (map elapsed os))] with ([Create (V := V) LatencyFile] ++ [Fill LatencyFile (Numbers (map elapsed os))]). rewrite app_assoc.
    apply (last_wins _ (Fill LatencyFile (Numbers (map elapsed os))) []); [reflexivity|intros []].
  - intros p Np Hf. apply untouched. rewrite map_app, in_app_iff. intros [Q|Q]; [apply traces_targets in Q; destruct Q as (f & Hin & Q); now apply (Hf f)|].
    destruct Q as [Q|[Q|[]]]; cbn [target] in Q; congruence.
Qed.
Theorem aborted (sub : submission V St) input st (fs : files V) e : listing input -> initialize sub = Ok st -> snd (evaluator first_dim sub input) = Err e ->
  exists before f rest os st', frames input = before ++ f :: rest /\ runs first_dim sub st before os st' /\ (forall o, ~ good_call first_dim sub st' f o) /\
    let fs' := after (fst (evaluator first_dim sub input)) fs in
    Forall2 (complete sub fs') before os /\ fs' (Dir (context f) (timestamp f)) = Some Made /\
    (forall n, fs' (File (context f) (timestamp f) n) = fs (File (context f) (timestamp f) n)) /\
    (forall g p, In g rest -> of_frame g p -> fs' p = fs p) /\ fs' LatencyFile = fs LatencyFile /\
    forall p, (forall f, In f (frames input) -> ~ of_frame f p) -> fs' p = fs p.
Proof.
  intros L E H. destruct (evaluator_cases first_dim sub input st L E) as [(os & st' & R & Ev)|(e' & before & f & rest & os & st' & Ef & R & B & Ev)]; rewrite Ev in H |- *; cbn [fst snd] in *; [discriminate|].
  exists before, f, rest, os, st'. split; [exact Ef|]. split; [exact R|]. split; [exact B|]. cbv zeta.
  destruct L as (L & _). rewrite Ef, map_app in L. cbn [map] in L.
  pose proof (nodup_app_inv _ _ L) as (Lb & Lr & D). apply NoDup_cons_iff in Lr. destruct Lr as (Nf & Lr).
  assert (forall p, In p (map target (traces sub before os ++ [made_dir f])) -> p = Dir (context f) (timestamp f) \/ exists g, In g before /\ of_frame g p) as T.
  { intros p Hp. rewrite map_app, in_app_iff in Hp. destruct Hp as [Hp|[Hp|[]]]; [right; now apply traces_targets in Hp|now left]. }
  split; [|split; [|split; [|split; [|split]]]].
  - pose proof (runs_complete first_dim sub st _ os st' R Lb fs) as C.
    assert (forall g, In g before -> same_on (of_frame g) (after (traces sub before os) fs) (after (traces sub before os ++ [made_dir f]) fs)) as W.
    { intros g Hg p Hp. rewrite after_app. symmetry. apply untouched. intros [Q|[]]. cbn [target made_dir] in Q. subst p. apply (D (place g)); [now apply in_map|].
      left. apply (frames_apart f g (Dir (context f) (timestamp f))); [now left|exact Hp]. }
    exact (complete_list sub _ _ _ _ W C).
  - apply (last_wins _ (made_dir f) []); [reflexivity|intros []].
  - intros n. apply untouched. intros Q. apply T in Q. destruct Q as [Q|(g & Hg & Q)]; [discriminate|]. apply (D (place g)); [now apply in_map|]. left.
    apply (frames_apart f g (File (context f) (timestamp f) n)); [right; eauto|exact Q].
  - intros g p Hg Hp. apply untouched. intros Q. apply T in Q. destruct Q as [->|(g' & Hg' & Q)].
    + apply Nf. rewrite (frames_apart f g _ (or_introl eq_refl) Hp). now apply in_map.
    + apply (D (place g')); [now apply in_map|]. right. rewrite (frames_apart g' g p Q Hp). now apply in_map.
  - apply untouched. intros Q. apply T in Q. destruct Q as [Q|(g & _ & Q)]; [discriminate|now apply not_latency in Q].
  - intros p Hp. apply untouched. intros Q. apply T in Q. destruct Q as [->|(g & Hg & Q)].
    + apply (Hp f); [rewrite Ef; apply in_app_iff; right; now left|now left].
    + apply (Hp g); [rewrite Ef; apply in_app_iff; now left|exact Q].
Qed.

(** * Crashes *)
Definition settled (tr : list (effect V)) : Prop := forall a e b, tr = a ++ e :: b -> match e with Create _ => True | _ => ~ In (target e) (map target b) end.
Lemma settled_app l m : settled l -> settled m -> (forall p, In p (map target l) -> ~ In p (map target m)) -> settled (l ++ m).
Proof.
  intros Sl Sm D a e b E. revert l Sl D E. induction a as [|x a IH]; intros [|y l] Sl D E; cbn [app] in E.
  - now apply (Sm []).
  - injection E as Ey E. subst y. specialize (Sl [] e l eq_refl). destruct e as [p|p|p x]; [|exact I|]; cbn [target] in *; rewrite <- E, map_app, in_app_iff; (intros [Q|Q]; [contradiction|]); apply (D p); (now left || exact Q).
  - now apply (Sm (x :: a)).
  - injection E as Ey E. subst y. apply (IH l); [|intros p Hp; apply D; now right|exact E]. intros a' e' b' ->. now apply (Sl (x :: a')).
Qed.
Lemma settled_write p x : settled (write p x).
Proof.
  intros [|a [|a' l]] e b E; unfold write in E; cbn [app] in E.
  - injection E as <- _. exact I.
  - injection E as _ <- <-. cbn. tauto.
  - exfalso. apply (f_equal (@length _)) in E. cbn [length] in E. rewrite app_length in E. cbn [length] in E. lia.
Qed.
Lemma settled_mkdir p : settled [Mkdir p].
Proof.
  intros [|a l] e b E; cbn [app] in E.
  - injection E as <- <-. cbn. tauto.
  - exfalso. apply (f_equal (@length _)) in E. cbn [length] in E. rewrite app_length in E. cbn [length] in E. lia.
Qed.
Lemma settled_saves c t out : NoDup (map fst out) -> settled (flat_map (save (V := V) c t) out).
Proof.
  induction out as [|[k v] out IH]; intros N; [intros [|a l] e b E; discriminate|]. cbn [map fst] in N. apply NoDup_cons_iff in N. destruct N as (Nk & N). cbn [flat_map]. apply settled_app; [apply settled_write|now apply IH|].
  intros p Hp Q. apply save_targets in Q. destruct Q as (k' & Hk' & ->). apply Nk. assert (k = k') as -> by (destruct Hp as [Hp|[Hp|[]]]; cbn [target fst] in Hp; injection Hp as Hp; now apply append_npy in Hp). exact Hk'.
Qed.
Lemma detections_keys out : detections first_dim out -> NoDup (map fst out) /\ forall k, In k (map fst out) -> (k ++ ".npy" <> "input_fields.txt")%string.
Proof.
  intros (b & s & c & n & P & _). split; [apply (Permutation_NoDup (l := KEYS)); [symmetry; apply (Permutation_map fst P)|apply keys_nodup]|].
  intros k Hk. apply (Permutation_in _ (Permutation_map fst P)) in Hk. destruct Hk as [<-|[<-|[<-|[]]]]; discriminate.
Qed.
Lemma settled_frame (sub : submission V St) f o : detections first_dim (output o) -> settled (frame_trace sub f o).
Proof.
  intros D. destruct (detections_keys _ D) as (N & Nf). unfold frame_trace, example_trace. change (made_dir f :: ?l) with ([made_dir f] ++ l). apply settled_app; [apply settled_mkdir| |].
  - apply settled_app; [now apply settled_saves|apply settled_write|]. intros p Hp Q. apply save_targets in Hp. destruct Hp as (k & Hk & ->). apply (Nf k Hk). destruct Q as [Q|[Q|[]]]; cbn [target] in Q; injection Q as Q; now symmetry.
  - intros p [<-|[]] Q. cbn [target made_dir] in Q. rewrite map_app, in_app_iff in Q. destruct Q as [Q|[Q|[Q|[]]]]; [apply save_targets in Q; destruct Q as (k & _ & Q)| |]; discriminate.
Qed.
Lemma settled_traces (sub : submission V St) st l os st' : runs first_dim sub st l os st' -> NoDup (map place l) -> settled (traces sub l os).
Proof.
  induction 1 as [st|st f l o os st' G R IH]; intros N; [intros [|a l] e b E; discriminate|]. cbn [map] in N. apply NoDup_cons_iff in N. destruct N as (Nf & N).
  unfold traces. cbn [combine map concat fst snd]. fold (traces sub l os). apply settled_app; [apply settled_frame; now destruct G as (d & _ & _ & G)|now apply IH|].
  intros p Hp Q. apply frame_targets in Hp. apply traces_targets in Q. destruct Q as (g & Hg & Q). apply Nf. rewrite (frames_apart f g p Hp Q). now apply in_map.
Qed.
Lemma settled_evaluator (sub : submission V St) input st : listing input -> initialize sub = Ok st -> settled (fst (evaluator first_dim sub input)).
Proof.
  intros L E. destruct (evaluator_cases first_dim sub input st L E) as [(os & st' & R & Ev)|(e' & before & f & rest & os & st' & Ef & R & B & Ev)]; rewrite Ev; cbn [fst]; apply settled_app.
  - apply (settled_traces sub st _ os st' R), L.
  - apply settled_write.
  - intros p Hp Q. apply traces_targets in Hp. destruct Hp as (g & _ & Hp). destruct Q as [Q|[Q|[]]]; cbn [target] in Q; subst p; now apply not_latency in Hp.
  - apply (settled_traces sub st _ os st' R). destruct L as (L & _). rewrite Ef, map_app in L. now apply nodup_app_inv in L.
  - apply settled_mkdir.
  - intros p Hp [<-|[]]. apply traces_targets in Hp. destruct Hp as (g & Hg & Hp). cbn [target made_dir] in Hp. destruct L as (L & _). rewrite Ef, map_app in L. apply nodup_app_inv in L. destruct L as (_ & _ & D).
    apply (D (place g)); [now apply in_map|]. left. apply (frames_apart f g (Dir (context f) (timestamp f))); [now left|exact Hp].
Qed.
Lemma last_target (l : list (effect V)) p : In p (map target l) -> exists a e b, l = a ++ e :: b /\ target e = p /\ ~ In p (map target b).
Proof.
  induction l as [|e l IH]; intros H; [destruct H|]. destruct (in_dec path_dec p (map target l)) as [Hi|Hi].
  - destruct (IH Hi) as (a & e' & b & -> & E & N). exists (e :: a), e', b. auto.
  - destruct H as [H|H]; [|contradiction]. exists [], e, l. auto.
Qed.
Theorem crash_files (sub : submission V St) input st (fs : files V) n : listing input -> initialize sub = Ok st ->
  let tr := fst (evaluator first_dim sub input) in
  forall p, after (firstn n tr) fs p = fs p \/ after (firstn n tr) fs p = Some Partial \/ after (firstn n tr) fs p = after tr fs p.
Proof.
  intros L E tr p. pose proof (settled_evaluator sub input st L E) as Sd. fold tr in Sd.
  destruct (in_dec path_dec p (map target (firstn n tr))) as [Hi|Hi]; [|left; now apply untouched].
  destruct (last_target _ _ Hi) as (a & e & b & E1 & Et & Nb). pose proof (firstn_skipn n tr) as Es. rewrite E1, <- app_assoc in Es. cbn [app] in Es.
  right. destruct e as [q|q|q x]; cbn [target] in Et; subst q.
  - right. specialize (Sd a (Mkdir p) _ (eq_sym Es)). cbn [target] in Sd. rewrite E1, <- Es. rewrite !(last_wins _ (Mkdir p)) by (assumption || reflexivity). reflexivity.
  - left. rewrite E1. now apply (last_wins _ (Create p)).
  - right. specialize (Sd a (Fill p x) _ (eq_sym Es)). cbn [target] in Sd. rewrite E1, <- Es. rewrite !(last_wins _ (Fill p x)) by (assumption || reflexivity). reflexivity.
Qed.
Lemma prefix_traces (sub : submission V St) st l os st' : runs first_dim sub st l os st' -> forall n, exists done rest os1 st1 tail,
  l = done ++ rest /\ runs first_dim sub st done os1 st1 /\ firstn n (traces sub l os) = traces sub done os1 ++ tail /\
  (rest = [] -> tail = []) /\ ((length (traces sub l os) <= n)%nat -> rest = []) /\ forall p, In p (map target tail) -> exists f r, rest = f :: r /\ of_frame f p.
Proof.
  induction 1 as [st|st f l o os st' G R IH]; intros n.
  - exists [], [], [], st, []. split; [reflexivity|]. split; [constructor|]. split; [now rewrite firstn_nil|]. split; [reflexivity|]. split; [reflexivity|]. intros p [].
  - unfold traces at 1. cbn [combine map concat fst snd]. fold (traces sub l os). rewrite firstn_app. destruct (Nat.le_gt_cases (length (frame_trace sub f o)) n) as [Le|Gt].
    + rewrite firstn_all2 by exact Le. destruct (IH (n - length (frame_trace sub f o))%nat) as (done & rest & os1 & st1 & tail & -> & R1 & E & Z0 & Z1 & T).
      exists (f :: done), rest, (o :: os1), st1, tail. split; [reflexivity|]. split; [now constructor|]. split; [|split; [exact Z0|split; [|exact T]]]; [|unfold traces; cbn [combine map concat fst snd]; rewrite app_length; intros Q; apply Z1; unfold traces; lia]. rewrite E. unfold traces at 2. cbn [combine map concat fst snd]. now rewrite app_assoc.
    + replace (n - length (frame_trace sub f o))%nat with 0%nat by lia. cbn [firstn]. rewrite app_nil_r. exists [], (f :: l), [], st, (firstn n (frame_trace sub f o)).
      split; [reflexivity|]. split; [constructor|]. split; [reflexivity|]. split; [discriminate|]. split; [unfold traces; cbn [combine map concat fst snd]; rewrite app_length; intros Q; lia|]. intros p Hp. exists f, l. split; [reflexivity|].
      apply (frame_targets sub f o). rewrite <- (firstn_skipn n (frame_trace sub f o)), map_app. apply in_app_iff. now left.
Qed.
Theorem crash_frames (sub : submission V St) input st (fs : files V) n : listing input -> initialize sub = Ok st ->
  let fs' := after (firstn n (fst (evaluator first_dim sub input))) fs in
  exists before rest os st', frames input = before ++ rest /\ runs first_dim sub st before os st' /\ Forall2 (complete sub fs') before os /\
    (forall g p, In g (tl rest) -> of_frame g p -> fs' p = fs p) /\ (rest <> [] -> fs' LatencyFile = fs LatencyFile).
Proof.
  intros L E fs'.
  assert (exists before rest os st' tail, frames input = before ++ rest /\ runs first_dim sub st before os st' /\ firstn n (fst (evaluator first_dim sub input)) = traces sub before os ++ tail /\
     forall p, In p (map target tail) -> (exists f r, rest = f :: r /\ of_frame f p) \/ p = LatencyFile /\ rest = []) as (before & rest & os & st' & tail & Ef & R & Et & T).
  { destruct (evaluator_cases first_dim sub input st L E) as [(os & st' & R & Ev)|(e' & before & f & rest & os & st' & Ef & R & B & Ev)]; rewrite Ev; cbn [fst]; rewrite firstn_app.
    - destruct (Nat.le_gt_cases (length (traces sub (frames input) os)) n) as [Le|Gt].
      + rewrite firstn_all2 by exact Le. exists (frames input), [], os, st', (firstn (n - length (traces sub (frames input) os)) (write LatencyFile (Numbers (map elapsed os)))).
        split; [now rewrite app_nil_r|]. split; [exact R|]. split; [reflexivity|]. intros p Hp. right. split; [|reflexivity].
        assert (In p (map target (write (V := V) LatencyFile (Numbers (map elapsed os))))) as Q by (rewrite <- (firstn_skipn (n - length (traces sub (frames input) os)) (write _ _)), map_app; apply in_app_iff; now left).
        destruct Q as [Q|[Q|[]]]; now symmetry.
      + replace (n - length (traces sub (frames input) os))%nat with 0%nat by lia. cbn [firstn]. rewrite app_nil_r. destruct (prefix_traces sub st _ os st' R n) as (done & rest & os1 & st1 & tail & Ed & R1 & Et & _ & _ & T).
        exists done, rest, os1, st1, tail. split; [exact Ed|]. split; [exact R1|]. split; [exact Et|]. intros p Hp. left. now apply T.
    - destruct (prefix_traces sub st _ os st' R n) as (done & rest' & os1 & st1 & tail & Ed & R1 & Et & Z0 & Zl & T). rewrite Et, <- app_assoc.
      destruct rest' as [|f' rest'].
      + rewrite (Z0 eq_refl) in *. rewrite app_nil_r in Ed. subst done. exists before, (f :: rest), os1, st1, (firstn (n - length (traces sub before os)) [made_dir f]).
        split; [exact Ef|]. split; [exact R1|]. split; [reflexivity|]. intros p Hp. left. exists f, rest. split; [reflexivity|]. left.
        assert (In p (map target [made_dir f])) as Q by (rewrite <- (firstn_skipn (n - length (traces sub before os)) [made_dir f]), map_app; apply in_app_iff; now left). destruct Q as [Q|[]]. now symmetry.
      + assert (firstn (n - length (traces sub before os)) [made_dir f] = []) as Z1.
        { destruct (Nat.le_gt_cases (length (traces sub before os)) n) as [Le|Gt]; [|replace (n - length (traces sub before os))%nat with 0%nat by lia; reflexivity].
          specialize (Zl Le). discriminate. }
        rewrite Z1, app_nil_r. exists done, ((f' :: rest') ++ f :: rest), os1, st1, tail. split; [rewrite Ef, Ed, <- app_assoc; reflexivity|]. split; [exact R1|]. split; [reflexivity|].
        intros p Hp. left. destruct (T p Hp) as (g & r & Eg & Hg). injection Eg as <- <-. exists f', (rest' ++ f :: rest). split; [reflexivity|exact Hg]. }
  pose proof L as (N & _). rewrite Ef, map_app in N. pose proof (nodup_app_inv _ _ N) as (Nb & Nr & D).
  exists before, rest, os, st'. split; [exact Ef|]. split; [exact R|]. unfold fs'. rewrite Et. split; [|split].
  - pose proof (runs_complete first_dim sub st _ os st' R Nb fs) as C.
    assert (forall g, In g before -> same_on (of_frame g) (after (traces sub before os) fs) (after (traces sub before os ++ tail) fs)) as W.
    { intros g Hg p Hp. rewrite after_app. symmetry. apply untouched. intros Q. destruct (T p Q) as [(f & r & -> & Hf)|(-> & _)]; [|now apply not_latency in Hp].
      apply (D (place g)); [now apply in_map|]. left. now apply (frames_apart f g p). }
    exact (complete_list sub _ _ _ _ W C).
  - intros g p Hg Hp. apply untouched. rewrite map_app, in_app_iff. intros [Q|Q].
    + apply traces_targets in Q. destruct Q as (g' & Hg' & Q). apply (D (place g')); [now apply in_map|]. rewrite (frames_apart g' g p Q Hp). apply in_map. destruct rest; [destruct Hg|now right].
    + destruct (T p Q) as [(f & r & -> & Hf)|(_ & ->)]; [|destruct Hg]. cbn [tl map] in *. apply NoDup_cons_iff in Nr. destruct Nr as (Nf & _). apply Nf. rewrite (frames_apart f g p Hf Hp). now apply in_map.
  - intros Hr. apply untouched. rewrite map_app, in_app_iff. intros [Q|Q].
    + apply traces_targets in Q. destruct Q as (g' & _ & Q). now apply not_latency in Q.
    + destruct (T _ Q) as [(f & r & _ & Hf)|(_ & Q')]; [now apply not_latency in Hf|contradiction].
Qed.
(** * A second run *)
Theorem rerun (sub : submission V St) input (fs : files V) n :
  let tr := fst (evaluator first_dim sub input) in forall p, after tr (after (firstn n tr) fs) p = after tr fs p.
Proof.
  intros tr p. destruct (in_dec path_dec p (map target tr)) as [Hi|Hi]; [now apply forgets|]. rewrite !(untouched tr) by exact Hi. apply untouched. intros Q. apply Hi.
  rewrite <- (firstn_skipn n tr), map_app. apply in_app_iff. now left.
Qed.
End Main.

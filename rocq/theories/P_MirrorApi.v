(** Couplings of stacks built upside down (C105). *)
From Verif Require Import P_MirrorRun P_Api.
From Verif Require Export P_MirrorRun S_Api.
Open Scope R_scope.

Lemma top_IEC d l l' : top_effect (CIEC d) l l' -> l' = set_l_IECTop d l.
Proof.
  intros [E S]. pose proof (S F_id ltac:(intros [X|[]]; discriminate)) as Q0. pose proof (S F_mag ltac:(intros [X|[]]; discriminate)) as Q1. pose proof (S F_anis ltac:(intros [X|[]]; discriminate)) as Q2. pose proof (S F_Ms ltac:(intros [X|[]]; discriminate)) as Q3. pose proof (S F_thickness ltac:(intros [X|[]]; discriminate)) as Q4. pose proof (S F_cellVolume ltac:(intros [X|[]]; discriminate)) as Q5. pose proof (S F_cellSurface ltac:(intros [X|[]]; discriminate)) as Q6. pose proof (S F_demag ltac:(intros [X|[]]; discriminate)) as Q7. pose proof (S F_dipoleBottom ltac:(intros [X|[]]; discriminate)) as Q8. pose proof (S F_dipoleTop ltac:(intros [X|[]]; discriminate)) as Q9. pose proof (S F_damping ltac:(intros [X|[]]; discriminate)) as Q10. pose proof (S F_fieldLikeTorque ltac:(intros [X|[]]; discriminate)) as Q11. pose proof (S F_dampingLikeTorque ltac:(intros [X|[]]; discriminate)) as Q12. pose proof (S F_slon ltac:(intros [X|[]]; discriminate)) as Q13. pose proof (S F_beta ltac:(intros [X|[]]; discriminate)) as Q14. pose proof (S F_kappa ltac:(intros [X|[]]; discriminate)) as Q15. pose proof (S F_spinPol ltac:(intros [X|[]]; discriminate)) as Q16. pose proof (S F_includeSTT ltac:(intros [X|[]]; discriminate)) as Q17. pose proof (S F_includeSOT ltac:(intros [X|[]]; discriminate)) as Q18. pose proof (S F_dynamicSOT ltac:(intros [X|[]]; discriminate)) as Q19. pose proof (S F_alternativeSTT ltac:(intros [X|[]]; discriminate)) as Q20. pose proof (S F_temperatureSet ltac:(intros [X|[]]; discriminate)) as Q21. pose proof (S F_nonStochTemp ltac:(intros [X|[]]; discriminate)) as Q22. pose proof (S F_nonStochOneF ltac:(intros [X|[]]; discriminate)) as Q23. pose proof (S F_pinkNoiseSet ltac:(intros [X|[]]; discriminate)) as Q24. pose proof (S F_reference ltac:(intros [X|[]]; discriminate)) as Q25. pose proof (S F_refType ltac:(intros [X|[]]; discriminate)) as Q26. pose proof (S F_temperature ltac:(intros [X|[]]; discriminate)) as Q27. pose proof (S F_IECBottom ltac:(intros [X|[]]; discriminate)) as Q29. pose proof (S F_QuadTop ltac:(intros [X|[]]; discriminate)) as Q30. pose proof (S F_QuadBottom ltac:(intros [X|[]]; discriminate)) as Q31. pose proof (S F_current ltac:(intros [X|[]]; discriminate)) as Q32. pose proof (S F_anisotropy ltac:(intros [X|[]]; discriminate)) as Q33. pose proof (S F_flDriver ltac:(intros [X|[]]; discriminate)) as Q34. pose proof (S F_dlDriver ltac:(intros [X|[]]; discriminate)) as Q35. pose proof (S F_IDMITop ltac:(intros [X|[]]; discriminate)) as Q36. pose proof (S F_IDMIBottom ltac:(intros [X|[]]; discriminate)) as Q37. pose proof (S F_Hreserved ltac:(intros [X|[]]; discriminate)) as Q38. pose proof (S F_external ltac:(intros [X|[]]; discriminate)) as Q39. pose proof (S F_Oersted ltac:(intros [X|[]]; discriminate)) as Q40. pose proof (S F_Hdmi ltac:(intros [X|[]]; discriminate)) as Q41. pose proof (S F_nAlpha ltac:(intros [X|[]]; discriminate)) as Q42. pose proof (S F_nScale ltac:(intros [X|[]]; discriminate)) as Q43. pose proof (S F_nStd ltac:(intros [X|[]]; discriminate)) as Q44. pose proof (S F_nAxis ltac:(intros [X|[]]; discriminate)) as Q45. pose proof (S F_ofn ltac:(intros [X|[]]; discriminate)) as Q46. pose proof (S F_bfn ltac:(intros [X|[]]; discriminate)) as Q47. pose proof (S F_nsrc ltac:(intros [X|[]]; discriminate)) as Q48. pose proof (S F_ngen ltac:(intros [X|[]]; discriminate)) as Q49. pose proof (S F_rng ltac:(intros [X|[]]; discriminate)) as Q50. pose proof (S F_rpos ltac:(intros [X|[]]; discriminate)) as Q51. pose proof (S F_cache ltac:(intros [X|[]]; discriminate)) as Q52.
  clear S. destruct l, l'. cbn in *. subst. reflexivity.
Qed.
Lemma bottom_IEC d l l' : bottom_effect (CIEC d) l l' -> l' = set_l_IECBottom d l.
Proof.
  intros [E S]. pose proof (S F_id ltac:(intros [X|[]]; discriminate)) as Q0. pose proof (S F_mag ltac:(intros [X|[]]; discriminate)) as Q1. pose proof (S F_anis ltac:(intros [X|[]]; discriminate)) as Q2. pose proof (S F_Ms ltac:(intros [X|[]]; discriminate)) as Q3. pose proof (S F_thickness ltac:(intros [X|[]]; discriminate)) as Q4. pose proof (S F_cellVolume ltac:(intros [X|[]]; discriminate)) as Q5. pose proof (S F_cellSurface ltac:(intros [X|[]]; discriminate)) as Q6. pose proof (S F_demag ltac:(intros [X|[]]; discriminate)) as Q7. pose proof (S F_dipoleBottom ltac:(intros [X|[]]; discriminate)) as Q8. pose proof (S F_dipoleTop ltac:(intros [X|[]]; discriminate)) as Q9. pose proof (S F_damping ltac:(intros [X|[]]; discriminate)) as Q10. pose proof (S F_fieldLikeTorque ltac:(intros [X|[]]; discriminate)) as Q11. pose proof (S F_dampingLikeTorque ltac:(intros [X|[]]; discriminate)) as Q12. pose proof (S F_slon ltac:(intros [X|[]]; discriminate)) as Q13. pose proof (S F_beta ltac:(intros [X|[]]; discriminate)) as Q14. pose proof (S F_kappa ltac:(intros [X|[]]; discriminate)) as Q15. pose proof (S F_spinPol ltac:(intros [X|[]]; discriminate)) as Q16. pose proof (S F_includeSTT ltac:(intros [X|[]]; discriminate)) as Q17. pose proof (S F_includeSOT ltac:(intros [X|[]]; discriminate)) as Q18. pose proof (S F_dynamicSOT ltac:(intros [X|[]]; discriminate)) as Q19. pose proof (S F_alternativeSTT ltac:(intros [X|[]]; discriminate)) as Q20. pose proof (S F_temperatureSet ltac:(intros [X|[]]; discriminate)) as Q21. pose proof (S F_nonStochTemp ltac:(intros [X|[]]; discriminate)) as Q22. pose proof (S F_nonStochOneF ltac:(intros [X|[]]; discriminate)) as Q23. pose proof (S F_pinkNoiseSet ltac:(intros [X|[]]; discriminate)) as Q24. pose proof (S F_reference ltac:(intros [X|[]]; discriminate)) as Q25. pose proof (S F_refType ltac:(intros [X|[]]; discriminate)) as Q26. pose proof (S F_temperature ltac:(intros [X|[]]; discriminate)) as Q27. pose proof (S F_IECTop ltac:(intros [X|[]]; discriminate)) as Q28. pose proof (S F_QuadTop ltac:(intros [X|[]]; discriminate)) as Q30. pose proof (S F_QuadBottom ltac:(intros [X|[]]; discriminate)) as Q31. pose proof (S F_current ltac:(intros [X|[]]; discriminate)) as Q32. pose proof (S F_anisotropy ltac:(intros [X|[]]; discriminate)) as Q33. pose proof (S F_flDriver ltac:(intros [X|[]]; discriminate)) as Q34. pose proof (S F_dlDriver ltac:(intros [X|[]]; discriminate)) as Q35. pose proof (S F_IDMITop ltac:(intros [X|[]]; discriminate)) as Q36. pose proof (S F_IDMIBottom ltac:(intros [X|[]]; discriminate)) as Q37. pose proof (S F_Hreserved ltac:(intros [X|[]]; discriminate)) as Q38. pose proof (S F_external ltac:(intros [X|[]]; discriminate)) as Q39. pose proof (S F_Oersted ltac:(intros [X|[]]; discriminate)) as Q40. pose proof (S F_Hdmi ltac:(intros [X|[]]; discriminate)) as Q41. pose proof (S F_nAlpha ltac:(intros [X|[]]; discriminate)) as Q42. pose proof (S F_nScale ltac:(intros [X|[]]; discriminate)) as Q43. pose proof (S F_nStd ltac:(intros [X|[]]; discriminate)) as Q44. pose proof (S F_nAxis ltac:(intros [X|[]]; discriminate)) as Q45. pose proof (S F_ofn ltac:(intros [X|[]]; discriminate)) as Q46. pose proof (S F_bfn ltac:(intros [X|[]]; discriminate)) as Q47. pose proof (S F_nsrc ltac:(intros [X|[]]; discriminate)) as Q48. pose proof (S F_ngen ltac:(intros [X|[]]; discriminate)) as Q49. pose proof (S F_rng ltac:(intros [X|[]]; discriminate)) as Q50. pose proof (S F_rpos ltac:(intros [X|[]]; discriminate)) as Q51. pose proof (S F_cache ltac:(intros [X|[]]; discriminate)) as Q52.
  clear S. destruct l, l'. cbn in *. subst. reflexivity.
Qed.
Lemma top_Quad d l l' : top_effect (CQuad d) l l' -> l' = set_l_QuadTop d l.
Proof.
  intros [E S]. pose proof (S F_id ltac:(intros [X|[]]; discriminate)) as Q0. pose proof (S F_mag ltac:(intros [X|[]]; discriminate)) as Q1. pose proof (S F_anis ltac:(intros [X|[]]; discriminate)) as Q2. pose proof (S F_Ms ltac:(intros [X|[]]; discriminate)) as Q3. pose proof (S F_thickness ltac:(intros [X|[]]; discriminate)) as Q4. pose proof (S F_cellVolume ltac:(intros [X|[]]; discriminate)) as Q5. pose proof (S F_cellSurface ltac:(intros [X|[]]; discriminate)) as Q6. pose proof (S F_demag ltac:(intros [X|[]]; discriminate)) as Q7. pose proof (S F_dipoleBottom ltac:(intros [X|[]]; discriminate)) as Q8. pose proof (S F_dipoleTop ltac:(intros [X|[]]; discriminate)) as Q9. pose proof (S F_damping ltac:(intros [X|[]]; discriminate)) as Q10. pose proof (S F_fieldLikeTorque ltac:(intros [X|[]]; discriminate)) as Q11. pose proof (S F_dampingLikeTorque ltac:(intros [X|[]]; discriminate)) as Q12. pose proof (S F_slon ltac:(intros [X|[]]; discriminate)) as Q13. pose proof (S F_beta ltac:(intros [X|[]]; discriminate)) as Q14. pose proof (S F_kappa ltac:(intros [X|[]]; discriminate)) as Q15. pose proof (S F_spinPol ltac:(intros [X|[]]; discriminate)) as Q16. pose proof (S F_includeSTT ltac:(intros [X|[]]; discriminate)) as Q17. pose proof (S F_includeSOT ltac:(intros [X|[]]; discriminate)) as Q18. pose proof (S F_dynamicSOT ltac:(intros [X|[]]; discriminate)) as Q19. pose proof (S F_alternativeSTT ltac:(intros [X|[]]; discriminate)) as Q20. pose proof (S F_temperatureSet ltac:(intros [X|[]]; discriminate)) as Q21. pose proof (S F_nonStochTemp ltac:(intros [X|[]]; discriminate)) as Q22. pose proof (S F_nonStochOneF ltac:(intros [X|[]]; discriminate)) as Q23. pose proof (S F_pinkNoiseSet ltac:(intros [X|[]]; discriminate)) as Q24. pose proof (S F_reference ltac:(intros [X|[]]; discriminate)) as Q25. pose proof (S F_refType ltac:(intros [X|[]]; discriminate)) as Q26. pose proof (S F_temperature ltac:(intros [X|[]]; discriminate)) as Q27. pose proof (S F_IECTop ltac:(intros [X|[]]; discriminate)) as Q28. pose proof (S F_IECBottom ltac:(intros [X|[]]; discriminate)) as Q29. pose proof (S F_QuadBottom ltac:(intros [X|[]]; discriminate)) as Q31. pose proof (S F_current ltac:(intros [X|[]]; discriminate)) as Q32. pose proof (S F_anisotropy ltac:(intros [X|[]]; discriminate)) as Q33. pose proof (S F_flDriver ltac:(intros [X|[]]; discriminate)) as Q34. pose proof (S F_dlDriver ltac:(intros [X|[]]; discriminate)) as Q35. pose proof (S F_IDMITop ltac:(intros [X|[]]; discriminate)) as Q36. pose proof (S F_IDMIBottom ltac:(intros [X|[]]; discriminate)) as Q37. pose proof (S F_Hreserved ltac:(intros [X|[]]; discriminate)) as Q38. pose proof (S F_external ltac:(intros [X|[]]; discriminate)) as Q39. pose proof (S F_Oersted ltac:(intros [X|[]]; discriminate)) as Q40. pose proof (S F_Hdmi ltac:(intros [X|[]]; discriminate)) as Q41. pose proof (S F_nAlpha ltac:(intros [X|[]]; discriminate)) as Q42. pose proof (S F_nScale ltac:(intros [X|[]]; discriminate)) as Q43. pose proof (S F_nStd ltac:(intros [X|[]]; discriminate)) as Q44. pose proof (S F_nAxis ltac:(intros [X|[]]; discriminate)) as Q45. pose proof (S F_ofn ltac:(intros [X|[]]; discriminate)) as Q46. pose proof (S F_bfn ltac:(intros [X|[]]; discriminate)) as Q47. pose proof (S F_nsrc ltac:(intros [X|[]]; discriminate)) as Q48. pose proof (S F_ngen ltac:(intros [X|[]]; discriminate)) as Q49. pose proof (S F_rng ltac:(intros [X|[]]; discriminate)) as Q50. pose proof (S F_rpos ltac:(intros [X|[]]; discriminate)) as Q51. pose proof (S F_cache ltac:(intros [X|[]]; discriminate)) as Q52.
  clear S. destruct l, l'. cbn in *. subst. reflexivity.
Qed.
Lemma bottom_Quad d l l' : bottom_effect (CQuad d) l l' -> l' = set_l_QuadBottom d l.
Proof.
  intros [E S]. pose proof (S F_id ltac:(intros [X|[]]; discriminate)) as Q0. pose proof (S F_mag ltac:(intros [X|[]]; discriminate)) as Q1. pose proof (S F_anis ltac:(intros [X|[]]; discriminate)) as Q2. pose proof (S F_Ms ltac:(intros [X|[]]; discriminate)) as Q3. pose proof (S F_thickness ltac:(intros [X|[]]; discriminate)) as Q4. pose proof (S F_cellVolume ltac:(intros [X|[]]; discriminate)) as Q5. pose proof (S F_cellSurface ltac:(intros [X|[]]; discriminate)) as Q6. pose proof (S F_demag ltac:(intros [X|[]]; discriminate)) as Q7. pose proof (S F_dipoleBottom ltac:(intros [X|[]]; discriminate)) as Q8. pose proof (S F_dipoleTop ltac:(intros [X|[]]; discriminate)) as Q9. pose proof (S F_damping ltac:(intros [X|[]]; discriminate)) as Q10. pose proof (S F_fieldLikeTorque ltac:(intros [X|[]]; discriminate)) as Q11. pose proof (S F_dampingLikeTorque ltac:(intros [X|[]]; discriminate)) as Q12. pose proof (S F_slon ltac:(intros [X|[]]; discriminate)) as Q13. pose proof (S F_beta ltac:(intros [X|[]]; discriminate)) as Q14. pose proof (S F_kappa ltac:(intros [X|[]]; discriminate)) as Q15. pose proof (S F_spinPol ltac:(intros [X|[]]; discriminate)) as Q16. pose proof (S F_includeSTT ltac:(intros [X|[]]; discriminate)) as Q17. pose proof (S F_includeSOT ltac:(intros [X|[]]; discriminate)) as Q18. pose proof (S F_dynamicSOT ltac:(intros [X|[]]; discriminate)) as Q19. pose proof (S F_alternativeSTT ltac:(intros [X|[]]; discriminate)) as Q20. pose proof (S F_temperatureSet ltac:(intros [X|[]]; discriminate)) as Q21. pose proof (S F_nonStochTemp ltac:(intros [X|[]]; discriminate)) as Q22. pose proof (S F_nonStochOneF ltac:(intros [X|[]]; discriminate)) as Q23. pose proof (S F_pinkNoiseSet ltac:(intros [X|[]]; discriminate)) as Q24. pose proof (S F_reference ltac:(intros [X|[]]; discriminate)) as Q25. pose proof (S F_refType ltac:(intros [X|[]]; discriminate)) as Q26. pose proof (S F_temperature ltac:(intros [X|[]]; discriminate)) as Q27. pose proof (S F_IECTop ltac:(intros [X|[]]; discriminate)) as Q28. pose proof (S F_IECBottom ltac:(intros [X|[]]; discriminate)) as Q29. pose proof (S F_QuadTop ltac:(intros [X|[]]; discriminate)) as Q30. pose proof (S F_current ltac:(intros [X|[]]; discriminate)) as Q32. pose proof (S F_anisotropy ltac:(intros [X|[]]; discriminate)) as Q33. pose proof (S F_flDriver ltac:(intros [X|[]]; discriminate)) as Q34. pose proof (S F_dlDriver ltac:(intros [X|[]]; discriminate)) as Q35. pose proof (S F_IDMITop ltac:(intros [X|[]]; discriminate)) as Q36. pose proof (S F_IDMIBottom ltac:(intros [X|[]]; discriminate)) as Q37. pose proof (S F_Hreserved ltac:(intros [X|[]]; discriminate)) as Q38. pose proof (S F_external ltac:(intros [X|[]]; discriminate)) as Q39. pose proof (S F_Oersted ltac:(intros [X|[]]; discriminate)) as Q40. pose proof (S F_Hdmi ltac:(intros [X|[]]; discriminate)) as Q41. pose proof (S F_nAlpha ltac:(intros [X|[]]; discriminate)) as Q42. pose proof (S F_nScale ltac:(intros [X|[]]; discriminate)) as Q43. pose proof (S F_nStd ltac:(intros [X|[]]; discriminate)) as Q44. pose proof (S F_nAxis ltac:(intros [X|[]]; discriminate)) as Q45. pose proof (S F_ofn ltac:(intros [X|[]]; discriminate)) as Q46. pose proof (S F_bfn ltac:(intros [X|[]]; discriminate)) as Q47. pose proof (S F_nsrc ltac:(intros [X|[]]; discriminate)) as Q48. pose proof (S F_ngen ltac:(intros [X|[]]; discriminate)) as Q49. pose proof (S F_rng ltac:(intros [X|[]]; discriminate)) as Q50. pose proof (S F_rpos ltac:(intros [X|[]]; discriminate)) as Q51. pose proof (S F_cache ltac:(intros [X|[]]; discriminate)) as Q52.
  clear S. destruct l, l'. cbn in *. subst. reflexivity.
Qed.
Lemma top_IDMI d l l' : top_effect (CIDMI d) l l' -> l' = set_l_IDMITop d l.
Proof.
  intros [E S]. pose proof (S F_id ltac:(intros [X|[]]; discriminate)) as Q0. pose proof (S F_mag ltac:(intros [X|[]]; discriminate)) as Q1. pose proof (S F_anis ltac:(intros [X|[]]; discriminate)) as Q2. pose proof (S F_Ms ltac:(intros [X|[]]; discriminate)) as Q3. pose proof (S F_thickness ltac:(intros [X|[]]; discriminate)) as Q4. pose proof (S F_cellVolume ltac:(intros [X|[]]; discriminate)) as Q5. pose proof (S F_cellSurface ltac:(intros [X|[]]; discriminate)) as Q6. pose proof (S F_demag ltac:(intros [X|[]]; discriminate)) as Q7. pose proof (S F_dipoleBottom ltac:(intros [X|[]]; discriminate)) as Q8. pose proof (S F_dipoleTop ltac:(intros [X|[]]; discriminate)) as Q9. pose proof (S F_damping ltac:(intros [X|[]]; discriminate)) as Q10. pose proof (S F_fieldLikeTorque ltac:(intros [X|[]]; discriminate)) as Q11. pose proof (S F_dampingLikeTorque ltac:(intros [X|[]]; discriminate)) as Q12. pose proof (S F_slon ltac:(intros [X|[]]; discriminate)) as Q13. pose proof (S F_beta ltac:(intros [X|[]]; discriminate)) as Q14. pose proof (S F_kappa ltac:(intros [X|[]]; discriminate)) as Q15. pose proof (S F_spinPol ltac:(intros [X|[]]; discriminate)) as Q16. pose proof (S F_includeSTT ltac:(intros [X|[]]; discriminate)) as Q17. pose proof (S F_includeSOT ltac:(intros [X|[]]; discriminate)) as Q18. pose proof (S F_dynamicSOT ltac:(intros [X|[]]; discriminate)) as Q19. pose proof (S F_alternativeSTT ltac:(intros [X|[]]; discriminate)) as Q20. pose proof (S F_temperatureSet ltac:(intros [X|[]]; discriminate)) as Q21. pose proof (S F_nonStochTemp ltac:(intros [X|[]]; discriminate)) as Q22. pose proof (S F_nonStochOneF ltac:(intros [X|[]]; discriminate)) as Q23. pose proof (S F_pinkNoiseSet ltac:(intros [X|[]]; discriminate)) as Q24. pose proof (S F_reference ltac:(intros [X|[]]; discriminate)) as Q25. pose proof (S F_refType ltac:(intros [X|[]]; discriminate)) as Q26. pose proof (S F_temperature ltac:(intros [X|[]]; discriminate)) as Q27. pose proof (S F_IECTop ltac:(intros [X|[]]; discriminate)) as Q28. pose proof (S F_IECBottom ltac:(intros [X|[]]; discriminate)) as Q29. pose proof (S F_QuadTop ltac:(intros [X|[]]; discriminate)) as Q30. pose proof (S F_QuadBottom ltac:(intros [X|[]]; discriminate)) as Q31. pose proof (S F_current ltac:(intros [X|[]]; discriminate)) as Q32. pose proof (S F_anisotropy ltac:(intros [X|[]]; discriminate)) as Q33. pose proof (S F_flDriver ltac:(intros [X|[]]; discriminate)) as Q34. pose proof (S F_dlDriver ltac:(intros [X|[]]; discriminate)) as Q35. pose proof (S F_IDMIBottom ltac:(intros [X|[]]; discriminate)) as Q37. pose proof (S F_Hreserved ltac:(intros [X|[]]; discriminate)) as Q38. pose proof (S F_external ltac:(intros [X|[]]; discriminate)) as Q39. pose proof (S F_Oersted ltac:(intros [X|[]]; discriminate)) as Q40. pose proof (S F_Hdmi ltac:(intros [X|[]]; discriminate)) as Q41. pose proof (S F_nAlpha ltac:(intros [X|[]]; discriminate)) as Q42. pose proof (S F_nScale ltac:(intros [X|[]]; discriminate)) as Q43. pose proof (S F_nStd ltac:(intros [X|[]]; discriminate)) as Q44. pose proof (S F_nAxis ltac:(intros [X|[]]; discriminate)) as Q45. pose proof (S F_ofn ltac:(intros [X|[]]; discriminate)) as Q46. pose proof (S F_bfn ltac:(intros [X|[]]; discriminate)) as Q47. pose proof (S F_nsrc ltac:(intros [X|[]]; discriminate)) as Q48. pose proof (S F_ngen ltac:(intros [X|[]]; discriminate)) as Q49. pose proof (S F_rng ltac:(intros [X|[]]; discriminate)) as Q50. pose proof (S F_rpos ltac:(intros [X|[]]; discriminate)) as Q51. pose proof (S F_cache ltac:(intros [X|[]]; discriminate)) as Q52.
  clear S. destruct l, l'. cbn in *. subst. reflexivity.
Qed.
Lemma bottom_IDMI d l l' : bottom_effect (CIDMI d) l l' -> l' = set_l_IDMIBottom d l.
Proof.
  intros [E S]. pose proof (S F_id ltac:(intros [X|[]]; discriminate)) as Q0. pose proof (S F_mag ltac:(intros [X|[]]; discriminate)) as Q1. pose proof (S F_anis ltac:(intros [X|[]]; discriminate)) as Q2. pose proof (S F_Ms ltac:(intros [X|[]]; discriminate)) as Q3. pose proof (S F_thickness ltac:(intros [X|[]]; discriminate)) as Q4. pose proof (S F_cellVolume ltac:(intros [X|[]]; discriminate)) as Q5. pose proof (S F_cellSurface ltac:(intros [X|[]]; discriminate)) as Q6. pose proof (S F_demag ltac:(intros [X|[]]; discriminate)) as Q7. pose proof (S F_dipoleBottom ltac:(intros [X|[]]; discriminate)) as Q8. pose proof (S F_dipoleTop ltac:(intros [X|[]]; discriminate)) as Q9. pose proof (S F_damping ltac:(intros [X|[]]; discriminate)) as Q10. pose proof (S F_fieldLikeTorque ltac:(intros [X|[]]; discriminate)) as Q11. pose proof (S F_dampingLikeTorque ltac:(intros [X|[]]; discriminate)) as Q12. pose proof (S F_slon ltac:(intros [X|[]]; discriminate)) as Q13. pose proof (S F_beta ltac:(intros [X|[]]; discriminate)) as Q14. pose proof (S F_kappa ltac:(intros [X|[]]; discriminate)) as Q15. pose proof (S F_spinPol ltac:(intros [X|[]]; discriminate)) as Q16. pose proof (S F_includeSTT ltac:(intros [X|[]]; discriminate)) as Q17. pose proof (S F_includeSOT ltac:(intros [X|[]]; discriminate)) as Q18. pose proof (S F_dynamicSOT ltac:(intros [X|[]]; discriminate)) as Q19. pose proof (S F_alternativeSTT ltac:(intros [X|[]]; discriminate)) as Q20. pose proof (S F_temperatureSet ltac:(intros [X|[]]; discriminate)) as Q21. pose proof (S F_nonStochTemp ltac:(intros [X|[]]; discriminate)) as Q22. pose proof (S F_nonStochOneF ltac:(intros [X|[]]; discriminate)) as Q23. pose proof (S F_pinkNoiseSet ltac:(intros [X|[]]; discriminate)) as Q24. pose proof (S F_reference ltac:(intros [X|[]]; discriminate)) as Q25. pose proof (S F_refType ltac:(intros [X|[]]; discriminate)) as Q26. pose proof (S F_temperature ltac:(intros [X|[]]; discriminate)) as Q27. pose proof (S F_IECTop ltac:(intros [X|[]]; discriminate)) as Q28. pose proof (S F_IECBottom ltac:(intros [X|[]]; discriminate)) as Q29. pose proof (S F_QuadTop ltac:(intros [X|[]]; discriminate)) as Q30. pose proof (S F_QuadBottom ltac:(intros [X|[]]; discriminate)) as Q31. pose proof (S F_current ltac:(intros [X|[]]; discriminate)) as Q32. pose proof (S F_anisotropy ltac:(intros [X|[]]; discriminate)) as Q33. pose proof (S F_flDriver ltac:(intros [X|[]]; discriminate)) as Q34. pose proof (S F_dlDriver ltac:(intros [X|[]]; discriminate)) as Q35. pose proof (S F_IDMITop ltac:(intros [X|[]]; discriminate)) as Q36. pose proof (S F_Hreserved ltac:(intros [X|[]]; discriminate)) as Q38. pose proof (S F_external ltac:(intros [X|[]]; discriminate)) as Q39. pose proof (S F_Oersted ltac:(intros [X|[]]; discriminate)) as Q40. pose proof (S F_Hdmi ltac:(intros [X|[]]; discriminate)) as Q41. pose proof (S F_nAlpha ltac:(intros [X|[]]; discriminate)) as Q42. pose proof (S F_nScale ltac:(intros [X|[]]; discriminate)) as Q43. pose proof (S F_nStd ltac:(intros [X|[]]; discriminate)) as Q44. pose proof (S F_nAxis ltac:(intros [X|[]]; discriminate)) as Q45. pose proof (S F_ofn ltac:(intros [X|[]]; discriminate)) as Q46. pose proof (S F_bfn ltac:(intros [X|[]]; discriminate)) as Q47. pose proof (S F_nsrc ltac:(intros [X|[]]; discriminate)) as Q48. pose proof (S F_ngen ltac:(intros [X|[]]; discriminate)) as Q49. pose proof (S F_rng ltac:(intros [X|[]]; discriminate)) as Q50. pose proof (S F_rpos ltac:(intros [X|[]]; discriminate)) as Q51. pose proof (S F_cache ltac:(intros [X|[]]; discriminate)) as Q52.
  clear S. destruct l, l'. cbn in *. subst. reflexivity.
Qed.
Lemma twin_top c l l' m m' : alike (flip l) m -> top_effect c l l' -> bottom_effect c m m' -> alike (flip l') m'.
Proof.
  intros [x ->] A B. exists x. destruct c as [d|d|d].
  - rewrite (top_IEC _ _ _ A), (bottom_IEC _ _ _ B). clear. layer_eq.
  - rewrite (top_Quad _ _ _ A), (bottom_Quad _ _ _ B). clear. layer_eq.
  - rewrite (top_IDMI _ _ _ A), (bottom_IDMI _ _ _ B). clear. layer_eq.
Qed.
Lemma twin_bottom c l l' m m' : alike (flip l) m -> bottom_effect c l l' -> top_effect c m m' -> alike (flip l') m'.
Proof.
  intros [x ->] A B. exists x. destruct c as [d|d|d].
  - rewrite (bottom_IEC _ _ _ A), (top_IEC _ _ _ B). clear. layer_eq.
  - rewrite (bottom_Quad _ _ _ A), (top_Quad _ _ _ B). clear. layer_eq.
  - rewrite (bottom_IDMI _ _ _ A), (top_IDMI _ _ _ B). clear. layer_eq.
Qed.
Lemma twin_id l m : alike (flip l) m -> l_id m = l_id l.
Proof. intros [c ->]. reflexivity. Qed.
Lemma pair_mirror a b x y p q : mirrored a b -> opposite (length (j_layers a)) (S p) q -> pair_at x y (j_layers a) p -> pair_at x y (j_layers b) q.
Proof.
  intros H O (l & u & El & Eu & I). pose proof (mirrored_sym _ _ H) as H'. pose proof H as [L _].
  assert (O1 : opposite (length (j_layers b)) q (S p)) by (rewrite L; apply opposite_sym, O).
  assert (O2 : opposite (length (j_layers b)) (S q) p) by (rewrite L; unfold opposite in *; lia).
  destruct (opposite_layer _ _ _ _ _ H' O1 Eu) as (u' & Eu' & A1). destruct (opposite_layer _ _ _ _ _ H' O2 El) as (l' & El' & A2).
  exists u', l'. split; [exact Eu'|]. split; [exact El'|]. rewrite <- (twin_id _ _ A1), <- (twin_id _ _ A2). tauto.
Qed.
Lemma pair_unique x y ls p p' : NoDup (map l_id ls) -> x <> y -> pair_at x y ls p -> pair_at x y ls p' -> p = p'.
Proof.
  intros ND XY (l & u & El & Eu & I) (l2 & u2 & El2 & Eu2 & I2).
  assert (K : forall i j v w, nth_error ls i = Some v -> nth_error ls j = Some w -> l_id v = l_id w -> i = j).
  { intros i j v w A B E. apply (proj1 (NoDup_nth_error _) ND). { apply nth_error_Some. rewrite (map_nth_error l_id _ _ A). discriminate. } rewrite (map_nth_error l_id _ _ A), (map_nth_error l_id _ _ B), E. reflexivity. }
  destruct I as [[A B]|[A B]], I2 as [[C D]|[C D]].
  - apply (K _ _ _ _ El El2). congruence.
  - pose proof (K _ _ _ _ El Eu2 ltac:(congruence)). pose proof (K _ _ _ _ Eu El2 ltac:(congruence)). lia.
  - pose proof (K _ _ _ _ El Eu2 ltac:(congruence)). pose proof (K _ _ _ _ Eu El2 ltac:(congruence)). lia.
  - apply (K _ _ _ _ El El2). congruence.
Qed.
Lemma couple_mirror a b x y c a' : mirrored a b -> NoDup (ids a) -> x <> y -> junction_couple x y c a = (a', Ok tt) ->
  exists b', junction_couple x y c b = (b', Ok tt) /\ mirrored a' b'.
Proof.
  intros H ND XY E. pose proof H as [L TW]. destruct (couple_success _ _ _ _ _ E) as (p & _ & LA & PA & _ & EA). unfold layerNo in LA.
  assert (B : (S p < length (j_layers a))%nat) by (destruct PA as (l & u & _ & Eu & _); apply nth_error_Some; congruence).
  assert (O : opposite (length (j_layers a)) (S p) (length (j_layers a) - 2 - p)) by (unfold opposite; lia).
  destruct (couple_found x y c b _ (pair_mirror _ _ _ _ _ _ H O PA)) as [b' E']. exists b'. split; [exact E'|].
  destruct (couple_success _ _ _ _ _ E') as (q & _ & LB & PB & _ & EB). unfold layerNo in LB.
  assert (Q : opposite (length (j_layers a)) (S p) q).
  { assert (Bq : (S q < length (j_layers b))%nat) by (destruct PB as (l & u & _ & Eu & _); apply nth_error_Some; congruence).
    assert (O' : opposite (length (j_layers b)) (S q) (length (j_layers b) - 2 - q)) by (unfold opposite; lia).
    pose proof (pair_unique _ _ _ _ _ ND XY PA (pair_mirror _ _ _ _ _ _ (mirrored_sym _ _ H) O' PB)) as X. unfold opposite. lia. }
  split; [congruence|]. intros i k l' m' OI El' Em'. rewrite LA in OI. destruct (nth_error_same_length _ _ _ _ (eq_sym LA) El') as [l El]. destruct (nth_error_same_length _ _ _ _ (eq_sym LB) Em') as [m Em].
  pose proof (TW i k l m OI El Em) as A. destruct (EA i l l' El El') as (A1 & A2 & A3). destruct (EB k m m' Em Em') as (B1 & B2 & B3). unfold opposite in *.
  destruct (Nat.eq_dec i p) as [I|I]; [apply (twin_top c l l' m m' A (A1 I)), B2; lia|].
  destruct (Nat.eq_dec i (S p)) as [J|J]; [apply (twin_bottom c l l' m m' A (A2 J)), B1; lia|].
  rewrite (A3 I J), (B3 ltac:(lia) ltac:(lia)). exact A.
Qed.
(** ** Building the other stack *)
Lemma flip_list_mirrored a b : j_layers b = rev (map flip (j_layers a)) -> mirrored a b.
Proof.
  intros E. split; [rewrite E, rev_length, map_length; reflexivity|]. intros p q l m O El Em.
  pose proof (image_nth a b p q l O El) as X. cbn [image j_layers set_j_layers] in X. rewrite <- E, Em in X. injection X as ->. apply alike_refl.
Qed.
Lemma plain_mirror ls a : Junction_plain ls = Ok a -> exists b, Junction_plain (rev (map flip ls)) = Ok b /\ mirrored a b.
Proof.
  intros H. assert (EL : j_layers a = ls) by (destruct ls; [discriminate|]; injection H as <-; reflexivity).
  exists (JN MR_NONE (rev (map flip ls)) 0 0 [] [] [] [] [] [] [] [] 0 "R"). split.
  - destruct ls as [|l ls]; [discriminate|]. destruct (rev (map flip (l :: ls))) eqn:E; [|reflexivity]. apply (f_equal (@length _)) in E. rewrite rev_length, map_length in E. discriminate.
  - apply flip_list_mirrored. rewrite EL. reflexivity.
Qed.
Lemma classic_mirror l0 l1 Rp Rap a : Junction_classic [l0; l1] Rp Rap = Ok a -> exists b, Junction_classic [flip l1; flip l0] Rp Rap = Ok b /\ mirrored a b.
Proof. intros H. injection H as <-. eexists. split; [reflexivity|]. apply flip_list_mirrored. reflexivity. Qed.
Lemma resistance_mirror a b ra rb : mirrored a b -> layerNo a = 2%nat -> j_mode a = MR_CLASSIC -> j_mode b = MR_CLASSIC -> j_Rp b = j_Rp a -> j_Rap b = j_Rap a ->
  resistance_row a ra -> resistance_row b rb -> map snd ra = map snd rb.
Proof.
  intros H L MA MB EP EQ. pose proof H as [LB _]. unfold layerNo in L. rewrite L in LB. destruct (mirrored_mags _ _ H) as [_ V]. unfold resistance_row. rewrite MA, MB, EP, EQ.
  destruct (j_layers a) as [|l0 [|l1 [|? ?]]]; try discriminate. destruct (j_layers b) as [|m0 [|m1 [|? ?]]]; try discriminate.
  pose proof (V 0%nat 1%nat ltac:(reflexivity)) as V0. pose proof (V 1%nat 0%nat ltac:(reflexivity)) as V1. cbn in V0, V1. intros -> ->. cbn [map snd]. rewrite V0, V1.
  assert (D : forall u v, Dot u v = Dot v u) by (intros [ux uy uz] [vx vy vz]; unfold Dot; cbn; ring). rewrite (D (l_mag l1)). reflexivity.
Qed.

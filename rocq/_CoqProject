-Q theories Verif
theories/PyReal.v
theories/GwMass_Model.v
theories/GwMass_Proofs.v
theories/GwMass_Props.v
theories/PriorSpec.v
theories/Prior_Model.v
theories/Prior_Proofs.v
theories/Prior_Proofs2.v
theories/Prior_Proofs3.v
theories/Prior_Props.v
theories/PyDict.v
theories/PriorDict_Model.v
theories/PriorDict_Proofs.v
theories/PriorDict_Props.v
theories/CondDict_Model.v
theories/CondDict_Proofs.v
theories/CondDict_Proofs2.v
theories/CondDict_Props.v
theories/CondPrior_Model.v
theories/CondPrior_Proofs.v
theories/CondPrior_Props.v
theories/Interp_Model.v
theories/Interp_Proofs.v
theories/Interp_Props.v
theories/Samples_Model.v
theories/Samples_Proofs.v
theories/Samples_Props.v
theories/Chain_Model.v
theories/Chain_Proofs.v
theories/Chain_Props.v
theories/Mcmc_Model.v
theories/Mcmc_Proofs.v
theories/Mcmc_Props.v
theories/Propose_Model.v
theories/Propose_Props.v
theories/Evidence_Model.v
theories/Evidence_Proofs.v
theories/Evidence_Props.v
theories/Series_Model.v
theories/Series_Proofs.v
theories/Series_Props.v
theories/Files_Model.v
theories/Files_Proofs.v
theories/Files_Props.v
theories/Result_Model.v
theories/Result_Proofs.v
theories/Result_Props.v
theories/Walk_Model.v
theories/Walk_Props.v
theories/Sampler_Model.v
theories/Sampler_Props.v
theories/GwGen_Model.v
theories/GwGen_Props.v
theories/GwBbh_Props.v
theories/Grid_Model.v
theories/Grid_Proofs.v
theories/Grid_Proofs2.v
theories/Grid_Proofs3.v
theories/Grid_Props.v
theories/Json_Model.v
theories/Json_Proofs.v
theories/Json_Props.v
theories/Hdf5_Model.v
theories/Hdf5_Proofs.v
theories/Hdf5_Props.v
theories/Lik_Model.v
theories/Lik_Proofs.v
theories/Lik_Props.v
theories/GaussInt.v
theories/GaussPrior_Model.v
theories/GaussPrior_Proofs.v
theories/GaussPrior_Props.v
theories/Hyper_Model.v
theories/Hyper_Proofs.v
theories/Hyper_Props.v
theories/Fisher_Model.v
theories/Fisher_Proofs.v
theories/Fisher_Props.v
theories/GwInner_Model.v
theories/GwInner_Proofs.v
theories/GwInner_Props.v
theories/Strain_Model.v
theories/Strain_Proofs.v
theories/Strain_Props.v
theories/Det_Model.v
theories/Det_Props.v
theories/GwLik_Model.v
theories/GwLik_Proofs.v
theories/GwLik_Props.v
theories/GwLik2_Props.v
theories/Calib_Model.v
theories/Calib_Proofs.v
theories/Calib_Props.v
theories/WfGen_Model.v
theories/WfGen_Props.v
theories/Hyp2f1.v
theories/GwPrior_Model.v
theories/GwPrior_Proofs.v
theories/GwPrior_Props.v
theories/GwPrior2_Props.v
theories/Cosmo_Model.v
theories/Cosmo_Props.v
theories/Joint_Model.v
theories/Joint_Proofs.v
theories/Joint_Props.v
theories/HealPix_Model.v
theories/HealPix_Props.v
theories/CalPrior_Model.v
theories/CalPrior_Props.v
theories/Relbin_Model.v
theories/Relbin_Props.v
theories/Mband_Model.v
theories/Mband_Props.v
theories/Roq_Model.v
theories/Roq_Props.v
theories/GwBns_Model.v
theories/GwBns_Props.v
theories/GwEos_Props.v
theories/PriorText_Model.v
theories/PriorText_Proofs.v
theories/PriorText_Props.v
theories/Ensemble_Model.v
theories/Ensemble_Props.v
theories/Ensemble2_Props.v
theories/Run_Model.v
theories/Run_Props.v
theories/Dynesty_Model.v
theories/Dynesty_Props.v
theories/Dynesty2_Props.v
theories/PriorMisc_Model.v
theories/PriorMisc_Props.v
theories/PriorMisc2_Props.v
theories/GwRecon_Model.v
theories/GwRecon_Props.v
theories/GwRecon2_Props.v
theories/Jump_Model.v
theories/Jump_Props.v
theories/Jump2_Props.v
theories/Adapters_Model.v
theories/Adapters_Props.v
theories/Adapters2_Props.v
theories/ResFile_Model.v
theories/ResFile_Props.v
theories/Post_Model.v
theories/Post_Props.v
theories/Post2_Props.v
theories/Ifo_Model.v
theories/Ifo_Props.v
theories/Ifo2_Props.v
theories/Source_Model.v
theories/Source_Props.v
theories/Source2_Props.v
theories/Eos_Model.v
theories/Eos_Props.v
theories/Eos2_Props.v
theories/Eos3_Props.v
theories/Eos4_Props.v
theories/Tau_Model.v
theories/Tau_Props.v
theories/Tau2_Props.v
theories/PtSamp_Model.v
theories/PtSamp_Props.v
theories/PtSamp2_Props.v
theories/McProp_Model.v
theories/McProp_Props.v
theories/McProp2_Props.v
theories/McProp3_Props.v
theories/McProp4_Props.v
theories/McCycle_Model.v
theories/McCycle_Props.v
theories/Source3_Props.v
theories/Pymc_Model.v
theories/Pymc_Props.v
theories/Pymc2_Props.v
theories/Evid2_Model.v
theories/Evid2_Props.v
theories/RoqCheck_Model.v
theories/RoqCheck_Props.v
theories/Gwsig_Model.v
theories/Gwsig_Props.v
theories/Combine_Model.v
theories/Combine_Props.v
theories/Eos5_Props.v
theories/Mvg_Model.v
theories/Mvg_Props.v
theories/Mband2_Model.v
theories/Dft_Proofs.v
theories/Mband2_Props.v
theories/MbSave_Model.v
theories/MbSave_Props.v
theories/Mband3_Model.v
theories/Mband3_Props.v
theories/EnsKw_Model.v
theories/EnsKw_Props.v
theories/Inject_Model.v
theories/Inject_Props.v
theories/SimNoise_Model.v
theories/SimNoise_Props.v
theories/Walks_Model.v
theories/Walks_Props.v
theories/Recheck_Props.v
theories/Sig_Model.v
theories/Sig_Props.v
theories/Names_Model.v
theories/Names_Props.v
theories/Recheck2_Props.v
theories/Start_Model.v
theories/Start_Props.v
theories/SaveData_Model.v
theories/SaveData_Props.v
theories/NestKw_Model.v
theories/NestKw_Props.v
theories/PtSteps_Model.v
theories/PtSteps_Props.v
theories/Resp_Model.v
theories/Resp_Props.v
theories/GridFile_Model.v
theories/GridFile_Props.v
theories/Summ_Model.v
theories/Summ_Props.v
theories/Pset_Model.v
theories/Pset_Props.v
theories/RoqMb_Model.v
theories/RoqMb_Props.v
theories/Recheck3_Props.v
theories/PymcMv_Model.v
theories/PymcMv_Props.v
theories/RoqTime_Model.v
theories/RoqTime_Props.v
theories/GwJump_Model.v
theories/GwJump_Props.v
theories/SnrSum_Model.v
theories/SnrSum_Props.v
theories/ExpOut_Model.v
theories/ExpOut_Props.v
theories/McResume_Model.v
theories/McResume_Props.v
theories/NormEst_Model.v
theories/NormEst_Props.v

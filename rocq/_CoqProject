-Q theories Verif
theories/Vec.v
theories/Res.v
theories/Arr.v
theories/ChoiceCalcs.v
theories/Transforms.v
theories/Ids.v
theories/Mappings.v
theories/MappingFacts.v
theories/SpecLogit.v
theories/ChoiceFacts.v
theories/LogitFacts.v
theories/RowDeriv.v
theories/LongData.v
theories/PropMappings.v
theories/ProbFacts.v
theories/PropProbs.v
theories/PropGradient.v
theories/PropGradientLimits.v
theories/HessFacts.v
theories/PropHessian.v
theories/PropHessianLimits.v
theories/PropConcave.v
theories/PropLikelihood.v
theories/Frame.v
theories/ChoiceTools.v
theories/PropDesign.v
theories/WideLong.v
theories/PropWideLong.v
theories/BaseModel.v
theories/PropBaseModel.v
theories/NestedCalcs.v
theories/NestedFacts.v
theories/PropNested.v
theories/MixedCalcs.v
theories/MixedFacts.v
theories/PropMixed.v
theories/PropPanel.v
theories/Estimation.v
theories/PropEstimation.v
theories/PropFit.v
theories/Nd.v
theories/Predict.v
theories/PredictNd.v
theories/BootLogLike.v
theories/PropPredict.v
theories/PropOwnRows.v
theories/PropRefit.v
theories/BootSampler.v
theories/PropBootSampler.v
theories/PropBootFrame.v
theories/BootCalcs.v
theories/PropPercentile.v
theories/PropBca.v
theories/BootAbc.v
theories/PropAbc.v
theories/PropAbcSquare.v
theories/Construct.v
theories/PropConstruct.v
theories/PropPredictNd.v
theories/BootMle.v
theories/PropBootStart.v
theories/PropInference.v
theories/PropBootMle.v
theories/PropBootLogLike.v
theories/PropNull.v
theories/BootIntervals.v
theories/PropIntervals.v
theories/WideNames.v
theories/PropWideNames.v
theories/ObjectStore.v
theories/Session.v
theories/PropStore.v
theories/PropSession.v
theories/PredictExt.v
theories/PropSessionPredict.v
theories/PropSessionRefit.v
theories/PropSessionEdits.v
theories/PropSessionCases.v
theories/DefiniteMat.v
theories/PropIdentified.v
theories/PropIdentifiedFit.v
theories/PropReparam.v
theories/PropReference.v
theories/PropPooled.v
theories/PropMonotone.v
theories/MixedObjective.v
theories/PropRicher.v
theories/PropRho.v
theories/PropDraws.v
theories/PropNestOrder.v
theories/PropBootWeights.v
theories/PropCopies.v
theories/PropNestCopies.v
theories/PropMixCopies.v
theories/PropSubstitution.v
theories/Summaries.v
theories/PropSummaries.v
theories/RawData.v
theories/PropRawData.v
theories/PropDataSource.v
theories/Generator.v
theories/PropGenerator.v
theories/PropSeeds.v
theories/PropSeparation.v
theories/Floats.v
theories/FloatFacts.v
theories/PropFloats.v
theories/FloatTransforms.v
theories/PropFloatTransforms.v
theories/FloatUtilities.v
theories/PropFloatUtilities.v
theories/PropFloatAccuracy.v
theories/FloatLogit.v
theories/FloatNear.v
theories/PropFloatNested.v
theories/PropFloatNestedData.v
theories/FloatObjective.v
theories/PropFloatObjective.v
theories/FloatGradient.v
theories/FloatDerivatives.v
theories/PropFloatGradient.v
theories/PropFloatDerivatives.v
theories/PropFloatGuards.v
theories/PropFloatTails.v
theories/FloatReport.v
theories/PropFloatReport.v
theories/PropFloatStatistics.v
theories/FloatMixed.v
theories/PropFloatMixed.v
theories/FloatMixedGradient.v
theories/PropFloatMixedGradient.v
theories/FloatNested.v
theories/PropFloatLogit.v
